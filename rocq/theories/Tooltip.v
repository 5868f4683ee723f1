(** Model of the tooltips of the charts: HTML texts put together from templates.
    Simplifications: the texts of numbers and dates are given by functions; lengths are
    in characters, JavaScript counts UTF-16 units (Utf16.v). *)
From Coq Require Import String List NArith ZArith QArith Bool Lia Arith.
From Verif Require Import Base ExplainTree PlanView Pi LoadCharts.
Import ListNotations.
Local Open Scope nat_scope.

Section Tooltip.
  (** Number.prototype.toFixed(2), Date.prototype.toUTCString, numbers in templates *)
  Context (fix2 : Q -> gostring) (utc : Z -> gostring) (num : Q -> gostring) (int : Z -> gostring).

  (** client/src/pages/dig/performance_insights/util/LoadTooltip.ts:8-25
      createLoadMaxTooltip with the height 300 of the components *)
  Definition load_max_tooltip (p : point_prop) : gostring :=
    lit "
    <div style='max-width: 500px; white-space: normal; max-height: 300px'>
      " ++ utc (pr_date p) ++ lit "<br />
      Database: " ++ pr_db p ++ lit "<br />
      <div style='margin-bottom: 10px;'>
        db.load.avg:&nbsp;
        <span style='font-weight: bold;'>
          " ++ fix2 (pr_percent p) ++ lit "%
        </span>
      </div>
      <span style='white-space: break-spaces'>" ++ pr_sql p ++ lit "</span>
    </div>
    ".
  (** LoadTooltip.ts:33-49 createLoadSumTooltip *)
  Definition load_sum_tooltip (r : rank) : gostring :=
    lit "
    <div style='max-width: 500px; white-space: normal; max-height: 300px'>
      Database: " ++ rk_db r ++ lit "<br />
      <div style='margin-bottom: 10px;'>
        Sum of db.load.avg:&nbsp;
        <span style='font-weight: bold;'>
          " ++ fix2 (rk_percent r) ++ lit "%
        </span>
      </div>
      <span style='white-space: break-spaces'>" ++ rk_sql r ++ lit "</span>
    </div>
    ".
  (** lib/GrChart.ts:56-65 tooltipCustom for the timelines; taking members of undefined is
      a TypeError *)
  Definition hover_timeline (targets : list gostring) (threshold : Q) (rows : list row) (i j : nat) : outcome gostring :=
    match nth_error (load_series targets threshold rows) i with
    | None => Panic
    | Some s =>
        match nth_error (se_data s) j with
        | None => Panic
        | Some p => match p_prop p with None => Panic | Some pr => Ok (load_max_tooltip pr) end
        end
    end.
  (** The same for the rankings *)
  (** lib/GrChart.ts:56-65 *)
  Definition hover_ranking (keys srt : list rank -> list rank) (count : nat) (targets : list gostring) (rows : list row) (j : nat) : outcome gostring :=
    match nth_error (ranking keys srt count targets rows) j with
    | None => Panic
    | Some r => Ok (load_sum_tooltip r)
    end.

  (** String.prototype.trim *)
  (** JavaScript; no lines in /repo, used at suggest/mysql/ExplainAnalyzeChart.svelte:33-37 *)
  Definition js_space (c : rune) : bool :=
    (N.leb 9 c && N.leb c 13 || N.eqb c 32 || N.eqb c 160 || N.eqb c 5760 || N.leb 8192 c && N.leb c 8202 ||
     N.eqb c 8232 || N.eqb c 8233 || N.eqb c 8239 || N.eqb c 8287 || N.eqb c 12288 || N.eqb c 65279)%N.
  (** JavaScript; no lines in /repo, used at suggest/mysql/ExplainAnalyzeChart.svelte:33-37 *)
  Fixpoint trim_left (s : gostring) : gostring :=
    match s with c :: s' => if js_space c then trim_left s' else s | [] => [] end.
  (** JavaScript; no lines in /repo, used at suggest/mysql/ExplainAnalyzeChart.svelte:33-37 *)
  Definition trim (s : gostring) : gostring := rev (trim_left (rev (trim_left s))).
  (** suggest/mysql/ExplainAnalyzeChart.svelte:33-37, suggest/postgres/ExplainAnalyzeChart.svelte:34-38,
      suggest/hasura/ExplainChart.svelte:34-38 *)
  Definition short_text (text : gostring) : gostring :=
    let t := trim text in
    if Nat.ltb 50 (length t) then firstn 50 t ++ lit "..." else firstn 50 t.
  (** The same files: the cell of the table *)
  (** suggest/mysql/ExplainAnalyzeChart.svelte:32-74 and its two siblings *)
  Definition table_cell (table : gostring) : gostring :=
    match table with [] => lit "-" | _ => lit "<span style='font-weight: bold'>" ++ table end.
  (** [x ?? dash] and a number in a template *)
  (** JavaScript; no lines in /repo, used at suggest/mysql/ExplainAnalyzeChart.svelte:32-74 *)
  Definition or_dash {A} (f : A -> gostring) (x : option A) : gostring := match x with Some a => f a | None => lit "-" end.
  (** JavaScript; no lines in /repo, used at suggest/mysql/ExplainAnalyzeChart.svelte:32-74 *)
  Definition in_template {A} (f : A -> gostring) (x : option A) : gostring := match x with Some a => f a | None => lit "null" end.
  (** A number that is a condition *)
  (** JavaScript; no lines in /repo, used at suggest/mysql/ExplainAnalyzeChart.svelte:32-74 *)
  Definition truthy (x : option Q) : bool := match x with Some q => negb (Qeq_bool q 0) | None => false end.
  (** actualLoopCount > 1 *)
  Definition several (x : option Z) : bool := match x with Some n => Z.ltb 1 n | None => false end.

  (** client/src/pages/suggest/mysql/ExplainAnalyzeChart.svelte:32-74 createTooltip *)
  Definition mysql_tooltip (n : vm_node) : gostring :=
    lit "
      <div style='text-align: left; padding: 5px'>
        <div style='margin-bottom: 5px; font-weight: bold'>" ++ short_text (vn_text n) ++ lit "</div>
        <div>Table:
          " ++ table_cell (vn_table n) ++ lit "</span>
        </div>
        " ++ (if truthy (vn_init_cost n) then lit "<div>Initial cost (estimated) : " ++ in_template num (vn_init_cost n) ++ lit "</div>" else []) ++ lit "
        <div>Cost (estimated) : " ++ or_dash num (vn_cost n) ++ lit "</div>
        <div>Rows returned (estimated) : " ++ or_dash int (vn_rows n) ++ lit "</div>
        <div>Time first row (actual) : " ++ or_dash num (vn_time_first n) ++ lit "</div>
        " ++ (if several (vn_loops n) then lit "<div>Time per loop (actual) : " ++ or_dash num (vn_time_avg n) ++ lit "</div>"
              else lit "<div>Time (actual) : " ++ or_dash num (vn_time_avg n) ++ lit "</div>") ++ lit "
        <div>Rows returned (actual) : " ++ or_dash int (vn_returned n) ++ lit "</div>
        <div>Loop count (actual) : " ++ or_dash int (vn_loops n) ++ lit "</div>
      </div>".
  (** client/src/pages/suggest/postgres/ExplainAnalyzeChart.svelte:33-71 createTooltip *)
  Definition postgres_tooltip (n : vm_node) : gostring :=
    lit "
      <div style='text-align: left; padding: 5px'>
        <div style='margin-bottom: 5px; font-weight: bold'>" ++ short_text (vn_text n) ++ lit "</div>
        <div>Table:
          " ++ table_cell (vn_table n) ++ lit "</span>
        </div>
        <div>Initial cost (estimated) : " ++ in_template num (vn_init_cost n) ++ lit "</div>
        <div>Cost (estimated) : " ++ in_template num (vn_cost n) ++ lit "</div>
        <div>Rows returned (estimated) : " ++ in_template int (vn_rows n) ++ lit "</div>
        <div>Width (estimated) : " ++ in_template int (vn_width n) ++ lit "</div>
        <!-- actualTimeAvg seems not the average time of loops for PostgreSQL even doc says so... -->
        <div>Time (actual) :  " ++ (if truthy (vn_time_first n) then in_template num (vn_time_first n) ++ lit " ~ " ++ in_template num (vn_time_avg n) else lit "-") ++ lit "</div>
        <div>Rows returned (actual) : " ++ or_dash int (vn_returned n) ++ lit "</div>
        <div>Loop count (actual) : " ++ or_dash int (vn_loops n) ++ lit "</div>
      </div>".
  (** client/src/pages/suggest/hasura/ExplainChart.svelte:33-61 createTooltip *)
  Definition hasura_tooltip (n : vm_node) : gostring :=
    lit "
      <div style='text-align: left; padding: 5px'>
        <div style='margin-bottom: 5px; font-weight: bold'>" ++ short_text (vn_text n) ++ lit "</div>
        <div>Table:
          " ++ table_cell (vn_table n) ++ lit "</span>
        </div>
        <div>Initial cost (estimated) : " ++ in_template num (vn_init_cost n) ++ lit "</div>
        <div>Cost (estimated) : " ++ in_template num (vn_cost n) ++ lit "</div>
        <div>Rows returned (estimated) : " ++ in_template int (vn_rows n) ++ lit "</div>
        <div>Width (estimated) : " ++ in_template int (vn_width n) ++ lit "</div>
      </div>".
End Tooltip.
