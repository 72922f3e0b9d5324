(** Properties C49 and C50: statistics and stopwatch.  Only statements; the proofs are in
    RecordersP.v.  [samples n ops]: the samples of quantity n since its last reset.
    [about n]: calls that concern measurement n; [pairs n l]: start and stop calls of n at
    the clock readings l; [elapsed m p]: seconds between two readings on the clock of mode m.
    [recording ops]: not turned off; [resets n o]: o is reset of n or reset_all. *)
From Coq Require Import String List Arith Bool ZArith Reals Lia Lra.
From Verif Require Import Scalar Outcome Recorders RecordersP.
Import ListNotations.
Open Scope string_scope.
Open Scope list_scope.
Open Scope nat_scope.

(** ** C49 statistics *)
Theorem C49_counts : forall ops, exists s, run (@stat_step Rnum) stat_new ops = Some s /\ forall n,
  match samples n ops with
  | None => stat_get s n = None
  | Some l => exists d, stat_get s n = Some d /\ q_total d = sumR l /\ q_last d = lastR l /\ q_stops d = length l
  end.
Proof. exact stat_counts. Qed.
Print Assumptions C49_counts.
Theorem C49_average : forall ops s n l d, run (@stat_step Rnum) stat_new ops = Some s -> samples n ops = Some l -> l <> [] -> stat_get s n = Some d -> (q_average d = sumR l / INR (length l))%R.
Proof. exact stat_average. Qed.
Print Assumptions C49_average.
Theorem C49_max : forall ops s n l d, run (@stat_step Rnum) stat_new ops = Some s -> samples n ops = Some l -> stat_get s n = Some d ->
  ((exists x, In x l /\ (0 <= x)%R) -> is_max (q_max d) l) /\ ((forall x, In x l -> (x < 0)%R) -> q_max d = 0%R).
Proof. exact stat_max. Qed.
Print Assumptions C49_max.
Theorem C49_min : forall ops s n l d, run (@stat_step Rnum) stat_new ops = Some s -> samples n ops = Some l -> stat_get s n = Some d ->
  l <> [] -> (~ In 0%R l \/ exists x, In x l /\ (x < 0)%R) -> is_min (q_min d) l.
Proof. intros ops s n l d E S G. exact (proj1 (stat_min ops s n l d E S G)). Qed.
Print Assumptions C49_min.
Theorem C49_min_after_zero : forall ops s n a b d, run (@stat_step Rnum) stat_new ops = Some s -> samples n ops = Some (a ++ 0%R :: b) -> stat_get s n = Some d ->
  (forall x, In x a -> (0 <= x)%R) -> (forall x, In x b -> (0 < x)%R) -> b <> [] -> is_min (q_min d) b.
Proof. exact stat_min_after_zero. Qed.
Print Assumptions C49_min_after_zero.
(** The stated property is false: a zero sample is lost, negative samples have maximum 0. *)
Theorem C49_min_refuted : exists ops s d l, run (@stat_step Rnum) stat_new ops = Some s /\ samples "q" ops = Some l /\ stat_get s "q" = Some d /\ In 0%R l /\ (0 < q_min d)%R.
Proof. exact stat_min_refuted. Qed.
Print Assumptions C49_min_refuted.
Theorem C49_max_refuted : exists ops s d l, run (@stat_step Rnum) stat_new ops = Some s /\ samples "q" ops = Some l /\ stat_get s "q" = Some d /\ l <> [] /\ ~ In (q_max d) l.
Proof. exact stat_max_refuted. Qed.
Print Assumptions C49_max_refuted.
Theorem C49_reset_unknown : forall ops s n, run (@stat_step Rnum) stat_new ops = Some s -> recording ops = true -> samples n ops = None -> stat_step s (SReset n) = Exc s.
Proof. exact stat_reset_unknown. Qed.
Print Assumptions C49_reset_unknown.
(** Two quantities, a pause in recording and a reset. *)
Example C49_case : samples "a" [@SStore Rnum "a" 3%R; @SStore Rnum "b" 7%R; SReset "a"; @SStore Rnum "a" 2%R; SOff; @SStore Rnum "a" 9%R; SOn; @SStore Rnum "a" (-1)%R] = Some [2%R; (-1)%R] /\
  samples "c" [@SStore Rnum "a" 3%R] = None.
Proof. split; reflexivity. Qed.

(** ** C50 stopwatch *)
Theorem C50_measures : forall cps n m l ops, m <> NONE -> l <> [] -> (forall p, In p l -> raw m (fst p) <> 0%R) -> filter (about n) ops = pairs n l ->
  exists s d, run (@watch_step Rnum cps) (watch_new m) ops = Some s /\ w_recs s n = Some d /\
    p_total d = sumR (map (elapsed cps m) l) /\ p_last d = lastR (map (elapsed cps m) l) /\ p_stops d = length l /\
    ((exists p, In p l /\ (0 <= elapsed cps m p)%R) -> is_max (p_max d) (map (elapsed cps m) l)) /\
    ((forall p, In p l -> elapsed cps m p <> 0%R) -> is_min (p_min d) (map (elapsed cps m) l)).
Proof. exact watch_measures. Qed.
Print Assumptions C50_measures.
Theorem C50_after_reset : forall cps s0 n m l ops, w_active s0 = true -> w_mode s0 = m -> w_recs s0 n <> None -> m <> NONE -> l <> [] -> (forall p, In p l -> raw m (fst p) <> 0%R) -> filter (about n) ops = pairs n l ->
  exists s d, run (@watch_step Rnum cps) s0 (WReset n :: ops) = Some s /\ w_recs s n = Some d /\
    p_total d = sumR (map (elapsed cps m) l) /\ p_last d = lastR (map (elapsed cps m) l) /\ p_stops d = length l /\
    ((exists p, In p l /\ (0 <= elapsed cps m p)%R) -> is_max (p_max d) (map (elapsed cps m) l)) /\
    ((forall p, In p l -> elapsed cps m p <> 0%R) -> is_min (p_min d) (map (elapsed cps m) l)).
Proof. exact watch_after_reset. Qed.
Print Assumptions C50_after_reset.
Theorem C50_after_mode : forall cps s0 n m l o ops, w_active s0 = true -> w_recs s0 n <> None -> resets n o -> m <> NONE -> l <> [] -> (forall p, In p l -> raw m (fst p) <> 0%R) -> filter (about n) ops = pairs n l ->
  exists s d, run (@watch_step Rnum cps) s0 (WMode m :: o :: ops) = Some s /\ w_recs s n = Some d /\
    p_total d = sumR (map (elapsed cps m) l) /\ p_last d = lastR (map (elapsed cps m) l) /\ p_stops d = length l /\
    ((exists p, In p l /\ (0 <= elapsed cps m p)%R) -> is_max (p_max d) (map (elapsed cps m) l)) /\
    ((forall p, In p l -> elapsed cps m p <> 0%R) -> is_min (p_min d) (map (elapsed cps m) l)).
Proof. exact watch_after_mode. Qed.
Print Assumptions C50_after_mode.
Theorem C50_off : forall cps ops s, Forall (fun o => ~ turns_on o) ops -> exists s', run (@watch_step Rnum cps) s (WOff :: ops ++ [WOn]) = Some s' /\ w_active s' = true /\ forall n, w_recs s' n = w_recs s n.
Proof. exact watch_off. Qed.
Print Assumptions C50_off.
Theorem C50_unknown : forall cps (s : watch Rnum) n c, w_active s = true -> w_recs s n = None ->
  @watch_step Rnum cps s (WStop n c) = Exc s /\ @watch_step Rnum cps s (WPause n c) = Exc s /\ @watch_step Rnum cps s (WReset n) = Exc s.
Proof. exact watch_unknown. Qed.
Print Assumptions C50_unknown.
Theorem C50_independent : forall cps n ops s t, agree n s t -> exists s' t', run (@watch_step Rnum cps) s ops = Some s' /\ run (@watch_step Rnum cps) t (filter (about n) ops) = Some t' /\ agree n s' t'.
Proof. exact watch_independent. Qed.
Print Assumptions C50_independent.
Theorem C50_pause_adds : forall cps (s : watch Rnum) n (c : clk Rnum) (d : pdata Rnum), w_active s = true -> w_recs s n = Some d -> p_start d <> 0%R ->
  exists s' d', @watch_step Rnum cps s (WPause n c) = Ret s' tt /\ w_recs s' n = Some d' /\ p_total d' = (p_total d + (c_k c - p_start d))%R /\ p_start d' = p_start d.
Proof. exact watch_pause_adds. Qed.
Print Assumptions C50_pause_adds.
Theorem C50_stop_again : forall cps (s : watch Rnum) n (c : clk Rnum) (d : pdata Rnum), w_active s = true -> w_mode s <> NONE -> w_recs s n = Some d -> p_start d <> 0%R ->
  exists s' d', @watch_step Rnum cps s (WStop n c) = Ret s' tt /\ w_recs s' n = Some d' /\ p_total d' = (p_total d + seconds cps (w_mode s) (raw (w_mode s) c - p_start d))%R /\ p_start d' = p_start d.
Proof. exact watch_stop_again. Qed.
Print Assumptions C50_stop_again.
(** The stated property is false for pause: two seconds are counted as three, and in real
    time mode the processor clock is compared with the time of day. *)
Theorem C50_pause_refuted : exists s d, run (@watch_step Rnum 1%R) (watch_new CPU_TIME) [WStart "m" (at_ 1); WPause "m" (at_ 2); WStop "m" (at_ 3)] = Some s /\ w_recs s "m" = Some d /\ p_total d = 3%R.
Proof. exact watch_pause_refuted. Qed.
Print Assumptions C50_pause_refuted.
Theorem C50_pause_real_refuted : forall cps a, (0 < a)%R -> exists s d, run (@watch_step Rnum cps) (watch_new REAL_TIME) [WStart "m" (@mkClk Rnum a 0%R); WPause "m" (@mkClk Rnum (a + 1)%R 0%R)] = Some s /\
  w_recs s "m" = Some d /\ p_total d = (- a)%R.
Proof. exact watch_pause_real_refuted. Qed.
Print Assumptions C50_pause_real_refuted.
Theorem C50_double_stop_refuted : exists s d, run (@watch_step Rnum 1%R) (watch_new REAL_TIME) [WStart "m" (at_ 1); WStop "m" (at_ 2); WStop "m" (at_ 3)] = Some s /\ w_recs s "m" = Some d /\ p_total d = 3%R /\ p_stops d = 2.
Proof. exact watch_double_stop_refuted. Qed.
Print Assumptions C50_double_stop_refuted.
Theorem C50_none : forall cps n c, exists s, @watch_step Rnum cps (watch_new NONE) (WStart n c) = Exc s /\ w_recs s n = Some p_zero.
Proof. exact watch_none_start. Qed.
Print Assumptions C50_none.
(** Two measurements that overlap in time. *)
Example C50_case : filter (about "a") [@WStart Rnum "a" (at_ 1); WStart "b" (at_ 2); WStop "a" (at_ 4); WStop "b" (at_ 5); WStart "a" (at_ 6); WStop "a" (at_ 8)] = pairs "a" [(at_ 1, at_ 4); (at_ 6, at_ 8)] /\
  (sumR (map (elapsed 1 REAL_TIME) [(at_ 1, at_ 4); (at_ 6, at_ 8)]) = 5)%R.
Proof. split; [reflexivity|]. cbn. lra. Qed.
