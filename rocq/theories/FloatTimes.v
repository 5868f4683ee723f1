(** Times and loads computed with rounded numbers, where the other files have rationals. *)
From Coq Require Import String List NArith ZArith QArith Bool.
From Verif Require Import Base ExplainTree MysqlExplain Pi LoadCharts.
Import ListNotations.
Local Open Scope Q_scope.

Section Rounded.
  Variable rnd : Q -> Q.
  (** mmodel/explain_analyze_result_line.go:132-141 EstimatedTotalTime; the time is read by
      strconv.ParseFloat, which rounds *)
  Definition f_total_time (l : result_line) : Q :=
    if (Qeq_bool (rnd (float_or_zero (rl_time_avg l))) 0 && Z.ltb 1000 (int_or_zero (rl_loops l)))%bool
    then rnd (rnd (1 # 10000) * rnd (inject_Z (int_or_zero (rl_loops l))))
    else rnd (rnd (float_or_zero (rl_time_avg l)) * rnd (inject_Z (int_or_zero (rl_loops l)))).
  (** infra/aws/pi_sql_load_avg.go:51: the sum of loads *)
  Definition f_add (a b : Q) : Q := rnd (a + b).
  (** the rows of pi_sql_load_avg.go:24-81 with such sums *)
  Definition f_rows (fuel : nat) (start end_ : gtime) (avgs : list (@load_avg Q)) : option (list row) :=
    convert_loads f_add qlt fuel start end_ avgs.
  (** DbTokenizedLoadRankingChart.ts:107-119, DbLoadRankingChart.ts:89-99 *)
  Definition f_rank_load (r : row) (db : gostring) (ps : list rank) (l : load) : list rank :=
    upsert (fun p => seqb (rk_db p) db && seqb (rk_sql p) (sl_sql l))
      {| rk_db := db; rk_sql := sl_sql l; rk_percent := rnd (sl_sum l * 100); rk_tok := sl_tok l; rk_date := row_date r |}
      (fun p => {| rk_db := rk_db p; rk_sql := rk_sql p; rk_percent := rnd (rk_percent p + rnd (sl_sum l * 100));
                   rk_tok := rk_tok p; rk_date := rk_date p |}) ps.
  (** DbLoadRankingChart.ts:82-100 *)
  Definition f_rank_db (targets : list gostring) (r : row) (ps : list rank) (d : db_load) : list rank :=
    if includes targets (dl_name d) then fold_left (f_rank_load r (dl_name d)) (dl_sqls d) ps else ps.
  (** DbLoadRankingChart.ts:81-101 *)
  Definition f_rank_row (targets : list gostring) (ps : list rank) (r : row) : list rank :=
    fold_left (f_rank_db targets r) (tl_dbs r) ps.
  (** DbLoadRankingChart.ts:79-123 *)
  Definition f_ranking (keys srt : list rank -> list rank) (count : nat) (targets : list gostring) (rows : list row) : list rank :=
    firstn count (srt (keys (fold_left (f_rank_row targets) rows []))).
End Rounded.
