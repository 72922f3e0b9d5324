(** Statistics and stopwatch: what is recorded after any sequence of calls. *)
From Coq Require Import String List Arith Bool ZArith QArith Qreals Reals Lia Lra.
From Verif Require Import Scalar Outcome Recorders.
Import ListNotations.
Open Scope string_scope.
Open Scope list_scope.
Open Scope nat_scope.

(** * Specification: extreme values, sums *)
Definition sumR (l : list R) : R := fold_right Rplus 0%R l.
Definition is_max (m : R) (l : list R) : Prop := In m l /\ forall x, In x l -> (x <= m)%R.
Definition is_min (m : R) (l : list R) : Prop := In m l /\ forall x, In x l -> (m <= x)%R.
Definition lastR (l : list R) : R := last l 0%R.
(** Samples of quantity [n] since its last reset: [None] before the first sample. *)
Definition sample_op (n : string) (a : bool * option (list R)) (o : stop_ Rnum) : bool * option (list R) :=
  let '(on, cur) := a in
  match o with
  | SOn => (true, cur)
  | SOff => (false, cur)
  | SStore m v => if on && String.eqb m n then (on, Some (match cur with Some l => l | None => [] end ++ [v])) else (on, cur)
  | SReset m => if on && String.eqb m n then (on, option_map (fun _ => []) cur) else (on, cur)
  | SResetAll => if on then (on, option_map (fun _ => []) cur) else (on, cur)
  end.
Definition samples (n : string) (ops : list (stop_ Rnum)) : option (list R) := snd (fold_left (sample_op n) ops (true, None)).

(** * The running extremes of the code *)
Definition recmin (l : list R) : R := fold_left (fun m v => if Rleb v m || Reqb m 0 then v else m) l 0%R.
Definition recmax (l : list R) : R := fold_left (fun m v => if Rleb m v then v else m) l 0%R.
Lemma recmax_snoc l v : recmax (l ++ [v]) = if Rleb (recmax l) v then v else recmax l.
Proof. unfold recmax. rewrite fold_left_app. reflexivity. Qed.
Lemma recmin_snoc l v : recmin (l ++ [v]) = if Rleb v (recmin l) || Reqb (recmin l) 0 then v else recmin l.
Proof. unfold recmin. rewrite fold_left_app. reflexivity. Qed.
Lemma recmax_spec l : (0 <= recmax l)%R /\ (forall x, In x l -> (x <= recmax l)%R) /\ (recmax l = 0%R \/ In (recmax l) l).
Proof.
  induction l as [|v l (H1 & H2 & H3)] using rev_ind; [cbn; split; [lra|split; [intros x []|left; reflexivity]]|]. rewrite recmax_snoc. destruct (Rleb (recmax l) v) eqn:E.
  - apply Rleb_true in E. split; [lra|]. split; [|right; apply in_or_app; right; left; reflexivity]. intros x Hx. apply in_app_or in Hx as [Hx|[<-|[]]]; [specialize (H2 x Hx)|]; lra.
  - apply Rleb_false in E. split; [exact H1|]. split.
    + intros x Hx. apply in_app_or in Hx as [Hx|[<-|[]]]; [exact (H2 x Hx)|lra].
    + destruct H3 as [H3|H3]; [left; exact H3|right; apply in_or_app; left; exact H3].
Qed.
(** True maximum when some sample is not negative, 0 when all are. *)
Theorem recmax_true l : (exists x, In x l /\ (0 <= x)%R) -> is_max (recmax l) l.
Proof.
  intros (x & Hx & Px). destruct (recmax_spec l) as (H1 & H2 & H3). split; [|exact H2]. destruct H3 as [H3|H3]; [|exact H3]. specialize (H2 x Hx). rewrite H3 in *. replace 0%R with x by lra. exact Hx.
Qed.
Theorem recmax_negative l : (forall x, In x l -> (x < 0)%R) -> recmax l = 0%R.
Proof. intros H. destruct (recmax_spec l) as (H1 & _ & [H3|H3]); [exact H3|]. specialize (H _ H3). lra. Qed.
Lemma recmin_spec l : (recmin l < 0 -> is_min (recmin l) l)%R /\ ((0 <= recmin l)%R -> forall x, In x l -> (0 <= x)%R) /\
  (l = [] \/ In (recmin l) l) /\ (~ In 0%R l -> (l = [] \/ is_min (recmin l) l)).
Proof.
  induction l as [|v l (H1 & H2 & H3 & H4)] using rev_ind.
  - cbn. split; [lra|]. split; [intros _ x []|]. split; left; reflexivity.
  - rewrite recmin_snoc. destruct (Rleb v (recmin l)) eqn:E; cbn [orb].
    + apply Rleb_true in E.
      assert (V : In v (l ++ [v])) by (apply in_or_app; right; left; reflexivity).
      split; [|split; [|split]].
      * intros Hv. split; [exact V|]. intros x Hx. apply in_app_or in Hx as [Hx|[<-|[]]]; [|lra]. destruct (Rlt_le_dec (recmin l) 0) as [C|C].
        -- destruct (H1 C) as [_ H]. specialize (H x Hx). lra.
        -- specialize (H2 C x Hx). lra.
      * intros Hv x Hx. apply in_app_or in Hx as [Hx|[<-|[]]]; [apply H2; [lra|exact Hx]|exact Hv].
      * right. exact V.
      * intros Hz. right. split; [exact V|]. intros x Hx. apply in_app_or in Hx as [Hx|[<-|[]]]; [|lra].
        destruct H4 as [->|[_ H]]; [intros C; apply Hz, in_or_app; left; exact C|destruct Hx|]. specialize (H x Hx). lra.
    + apply Rleb_false in E. destruct (Reqb (recmin l) 0) eqn:Z.
      * apply Reqb_true in Z. assert (V : In v (l ++ [v])) by (apply in_or_app; right; left; reflexivity). split; [intros; lra|]. split; [|split].
        -- intros _ x Hx. apply in_app_or in Hx as [Hx|[<-|[]]]; [apply H2; [lra|exact Hx]|lra].
        -- right. exact V.
        -- intros Hz. right. split; [exact V|]. intros x Hx. apply in_app_or in Hx as [Hx|[<-|[]]]; [|lra]. destruct H3 as [->|H3]; [destruct Hx|]. exfalso. apply Hz, in_or_app. left. rewrite <- Z. exact H3.
      * apply Reqb_false in Z. assert (L : l <> []) by (intros ->; apply Z; reflexivity).
        assert (M : is_min (recmin l) l -> is_min (recmin l) (l ++ [v])).
        { intros [A B]. split; [apply in_or_app; left; exact A|]. intros x Hx. apply in_app_or in Hx as [Hx|[<-|[]]]; [exact (B x Hx)|lra]. }
        split; [auto|]. split; [|split].
        -- intros C x Hx. apply in_app_or in Hx as [Hx|[<-|[]]]; [exact (H2 C x Hx)|lra].
        -- destruct H3 as [H3|H3]; [contradiction|]. right. apply in_or_app. left. exact H3.
        -- intros Hz. right. apply M. destruct H4 as [H4|H4]; [intros C; apply Hz, in_or_app; left; exact C|contradiction|exact H4].
Qed.
(** True minimum when no sample is 0 or some sample is negative. *)
Theorem recmin_true l : l <> [] -> (~ In 0%R l \/ exists x, In x l /\ (x < 0)%R) -> is_min (recmin l) l.
Proof.
  intros HL [H|(x & Hx & Px)]; destruct (recmin_spec l) as (H1 & H2 & H3 & H4).
  - destruct (H4 H) as [C|C]; [contradiction|exact C].
  - apply H1. destruct (Rlt_le_dec (recmin l) 0) as [C|C]; [exact C|]. specialize (H2 C x Hx). lra.
Qed.
(** Otherwise every sample up to the last 0 is forgotten. *)
Theorem recmin_zero a b : (forall x, In x a -> (0 <= x)%R) -> (forall x, In x b -> (0 < x)%R) -> recmin (a ++ 0%R :: b) = recmin b.
Proof.
  intros Ha Hb. assert (Z : recmin (a ++ [0%R]) = 0%R).
  { rewrite recmin_snoc. destruct (Rleb 0 (recmin a)) eqn:E; [reflexivity|]. apply Rleb_false in E. cbn [orb]. destruct (recmin_spec a) as (H1 & _). destruct (H1 E) as [C _]. specialize (Ha _ C). lra. }
  replace (a ++ 0%R :: b) with ((a ++ [0%R]) ++ b) by (rewrite <- app_assoc; reflexivity). unfold recmin at 1. rewrite fold_left_app. fold (recmin (a ++ [0%R])). rewrite Z. reflexivity.
Qed.
Lemma sumR_app a b : sumR (a ++ b) = (sumR a + sumR b)%R.
Proof. unfold sumR. induction a as [|x a IH]; cbn; [|rewrite IH]; lra. Qed.

(** * Statistics *)
Notation stat_stepR := (@stat_step Rnum).
Definition shows (d : qdata Rnum) (l : list R) : Prop :=
  q_total d = sumR l /\ q_last d = lastR l /\ q_stops d = length l /\ q_max d = recmax l /\ q_min d = recmin l.
Lemma shows_store d l v : shows d l -> shows (q_store d v) (l ++ [v]).
Proof.
  intros (H1 & H2 & H3 & H4 & H5). unfold shows, q_store. cbn [q_total q_last q_stops q_max q_min].
  split; [rewrite H1, sumR_app; cbn; unfold sumR; cbn; lra|]. split; [unfold lastR; rewrite last_last; reflexivity|]. split; [rewrite app_length, H3; cbn; lia|].
  rewrite recmax_snoc, recmin_snoc, H4, H5. split; reflexivity.
Qed.
Lemma shows_zero : shows q_zero [].
Proof. repeat split. Qed.
Definition tracks (n : string) (s : stat Rnum) (a : bool * option (list R)) : Prop :=
  st_active s = fst a /\ match snd a with None => stat_get s n = None | Some l => exists d, stat_get s n = Some d /\ shows d l end.
Lemma tracks_step n s a o : tracks n s a -> exists s', after (stat_stepR s o) = Some s' /\ tracks n s' (sample_op n a o).
Proof.
  destruct a as [on cur]. intros [HA HC]. unfold tracks, stat_get in *. cbn [fst snd] in *. subst on. destruct o; cbn [stat_step sample_op].
  - destruct (st_active s) eqn:A; cbn [andb]; [|exists s; split; [reflexivity|]; cbn; auto].
    eexists. split; [reflexivity|]. cbn [st_active st_recs]. unfold sput. destruct (String.eqb_spec n0 n) as [->|Hne].
    + rewrite String.eqb_refl. cbn [fst snd]. split; [reflexivity|]. eexists. split; [reflexivity|]. destruct cur as [l|].
      * destruct HC as (d & -> & Hd). apply shows_store, Hd.
      * rewrite HC. apply shows_store, shows_zero.
    + destruct (String.eqb_spec n n0) as [->|_]; [contradiction|]. cbn [fst snd]. auto.
  - destruct (st_active s) eqn:A; cbn [andb]; [|exists s; split; [reflexivity|]; cbn; auto].
    destruct (st_recs s n0) as [d0|] eqn:E.
    + eexists. split; [reflexivity|]. cbn [st_active st_recs]. unfold sput. destruct (String.eqb_spec n0 n) as [->|Hne].
      * rewrite String.eqb_refl. cbn [fst snd]. split; [reflexivity|]. destruct cur as [l|]; cbn [option_map]; [eexists; split; [reflexivity|apply shows_zero]|congruence].
      * destruct (String.eqb_spec n n0) as [->|_]; [contradiction|]. cbn [fst snd]. auto.
    + exists s. split; [reflexivity|]. destruct (String.eqb_spec n0 n) as [->|Hne]; cbn [fst snd]; [|auto]. split; [exact A|]. destruct cur as [l|]; cbn [option_map]; [|exact HC]. destruct HC as (d & C & _). congruence.
  - destruct (st_active s) eqn:A; [|exists s; split; [reflexivity|]; cbn; auto].
    eexists. split; [reflexivity|]. cbn [st_active st_recs fst snd]. split; [reflexivity|]. unfold seach. destruct cur as [l|]; cbn [option_map].
    + destruct HC as (d & -> & _). eexists. split; [reflexivity|apply shows_zero].
    + rewrite HC. reflexivity.
  - eexists. split; [reflexivity|]. cbn. auto.
  - eexists. split; [reflexivity|]. cbn. auto.
Qed.
Lemma tracks_run n ops : forall s a, tracks n s a -> exists s', run stat_stepR s ops = Some s' /\ tracks n s' (fold_left (sample_op n) ops a).
Proof.
  induction ops as [|o ops IH]; intros s a H; [exists s; split; [reflexivity|exact H]|]. destruct (tracks_step n s a o H) as (s1 & E1 & H1). destruct (IH s1 _ H1) as (s2 & E2 & H2). exists s2. cbn [run fold_left]. rewrite E1. split; assumption.
Qed.
Theorem stat_exact ops : exists s, run stat_stepR stat_new ops = Some s /\ forall n,
  match samples n ops with
  | None => stat_get s n = None
  | Some l => exists d, stat_get s n = Some d /\ q_total d = sumR l /\ q_last d = lastR l /\ q_stops d = length l /\ q_max d = recmax l /\ q_min d = recmin l
  end.
Proof.
  assert (T0 : forall n, tracks n stat_new (true, None)) by (intros n; split; reflexivity).
  destruct (tracks_run "" ops _ _ (T0 "")) as (s & E & _). exists s. split; [exact E|]. intros n. destruct (tracks_run n ops _ _ (T0 n)) as (s2 & E2 & _ & H2). rewrite E in E2. injection E2 as <-. exact H2.
Qed.
Theorem stat_average ops s n l d : run stat_stepR stat_new ops = Some s -> samples n ops = Some l -> l <> [] -> stat_get s n = Some d -> (q_average d = sumR l / INR (length l))%R.
Proof.
  intros E HS HL G. destruct (stat_exact ops) as (s2 & E2 & H). rewrite E in E2. injection E2 as <-. specialize (H n). rewrite HS in H. destruct H as (d2 & G2 & A & _ & B & _). rewrite G in G2. injection G2 as <-.
  unfold q_average. rewrite A, B. cbn [Rnum ndiv nofQ]. unfold Q2R, inject_Z. cbn [Qnum Qden]. rewrite INR_IZR_INZ. cbn. field. apply not_0_IZR. destruct l; [contradiction|cbn; lia].
Qed.
Theorem stat_max ops s n l d : run stat_stepR stat_new ops = Some s -> samples n ops = Some l -> stat_get s n = Some d ->
  ((exists x, In x l /\ (0 <= x)%R) -> is_max (q_max d) l) /\ ((forall x, In x l -> (x < 0)%R) -> q_max d = 0%R).
Proof.
  intros E HS G. destruct (stat_exact ops) as (s2 & E2 & H). rewrite E in E2. injection E2 as <-. specialize (H n). rewrite HS in H. destruct H as (d2 & G2 & _ & _ & _ & A & _). rewrite G in G2. injection G2 as <-.
  rewrite A. split; [apply recmax_true|apply recmax_negative].
Qed.
Theorem stat_min ops s n l d : run stat_stepR stat_new ops = Some s -> samples n ops = Some l -> stat_get s n = Some d ->
  (l <> [] -> (~ In 0%R l \/ exists x, In x l /\ (x < 0)%R) -> is_min (q_min d) l) /\
  (forall a b, l = a ++ 0%R :: b -> (forall x, In x a -> (0 <= x)%R) -> (forall x, In x b -> (0 < x)%R) -> q_min d = recmin b).
Proof.
  intros E HS G. destruct (stat_exact ops) as (s2 & E2 & H). rewrite E in E2. injection E2 as <-. specialize (H n). rewrite HS in H. destruct H as (d2 & G2 & _ & _ & _ & _ & A). rewrite G in G2. injection G2 as <-.
  rewrite A. split; [apply recmin_true|]. intros a b -> Ha Hb. apply recmin_zero; assumption.
Qed.
(** Without the model's own recursions. *)
Theorem stat_counts ops : exists s, run stat_stepR stat_new ops = Some s /\ forall n,
  match samples n ops with
  | None => stat_get s n = None
  | Some l => exists d, stat_get s n = Some d /\ q_total d = sumR l /\ q_last d = lastR l /\ q_stops d = length l
  end.
Proof.
  destruct (stat_exact ops) as (s & E & H). exists s. split; [exact E|]. intros n. specialize (H n). destruct (samples n ops) as [l|]; [|exact H]. destruct H as (d & G & A & B & C & _). exists d. auto.
Qed.
(** Among samples >= 0 a zero hides the samples up to it. *)
Theorem stat_min_after_zero ops s n a b d : run stat_stepR stat_new ops = Some s -> samples n ops = Some (a ++ 0%R :: b) -> stat_get s n = Some d ->
  (forall x, In x a -> (0 <= x)%R) -> (forall x, In x b -> (0 < x)%R) -> b <> [] -> is_min (q_min d) b.
Proof.
  intros E S1 G Ha Hb Hne. destruct (stat_min ops s n _ d E S1 G) as [_ M]. rewrite (M a b eq_refl Ha Hb). apply recmin_true; [exact Hne|]. left. intros C. specialize (Hb _ C). lra.
Qed.
Lemma recmin_one v : recmin [v] = v.
Proof. unfold recmin. cbn [fold_left]. destruct (Rleb v 0); [reflexivity|]. destruct (Reqb 0 0) eqn:E; [reflexivity|]. apply Reqb_false in E. contradiction E. reflexivity. Qed.
Theorem stat_min_refuted : exists ops s d l, run stat_stepR stat_new ops = Some s /\ samples "q" ops = Some l /\ stat_get s "q" = Some d /\ In 0%R l /\ (0 < q_min d)%R.
Proof.
  set (ops := [@SStore Rnum "q" 0%R; @SStore Rnum "q" 5%R]). destruct (stat_exact ops) as (s & E & H). specialize (H "q"). assert (S1 : samples "q" ops = Some [0%R; 5%R]) by reflexivity. assert (S1' := S1). rewrite S1 in H. destruct H as (d & G & _).
  exists ops, s, d, [0%R; 5%R]. split; [exact E|]. split; [exact S1|]. split; [exact G|]. split; [left; reflexivity|].
  destruct (stat_min ops s "q" _ d E S1 G) as [_ M]. rewrite (M [] [5%R] eq_refl), recmin_one; [lra|intros x []|intros x [<-|[]]; lra].
Qed.
Theorem stat_max_refuted : exists ops s d l, run stat_stepR stat_new ops = Some s /\ samples "q" ops = Some l /\ stat_get s "q" = Some d /\ l <> [] /\ ~ In (q_max d) l.
Proof.
  set (ops := [@SStore Rnum "q" (-5)%R]). destruct (stat_exact ops) as (s & E & H). specialize (H "q"). assert (S1 : samples "q" ops = Some [(-5)%R]) by reflexivity. assert (S1' := S1). rewrite S1 in H. destruct H as (d & G & _).
  exists ops, s, d, [(-5)%R]. split; [exact E|]. split; [exact S1|]. split; [exact G|]. split; [discriminate|].
  destruct (stat_max ops s "q" _ d E S1 G) as [_ M]. rewrite M; [intros [C|[]]; lra|intros x [<-|[]]; lra].
Qed.

(** Whether the samples are recorded: the last of turn_on and turn_off. *)
Definition recording (ops : list (stop_ Rnum)) : bool := fold_left (fun b o => match o with SOn => true | SOff => false | _ => b end) ops true.
Lemma stat_active ops : forall s s', run stat_stepR s ops = Some s' -> st_active s' = fold_left (fun b o => match o with SOn => true | SOff => false | _ => b end) ops (st_active s).
Proof.
  induction ops as [|o ops IH]; intros s s' E; [injection E as <-; reflexivity|]. cbn [run fold_left] in *. destruct (after (stat_stepR s o)) as [s1|] eqn:E1; [|discriminate]. rewrite (IH s1 s' E). f_equal.
  destruct o; cbn [stat_step] in E1; try (injection E1 as <-; reflexivity); destruct (st_active s) eqn:A; try (injection E1 as <-; cbn; auto; fail).
  destruct (st_recs s n); injection E1 as <-; cbn; auto.
Qed.
(** Reset of a quantity that was never stored. *)
Theorem stat_reset_unknown ops s n : run stat_stepR stat_new ops = Some s -> recording ops = true -> samples n ops = None -> stat_stepR s (SReset n) = Exc s.
Proof.
  intros E A N. destruct (stat_counts ops) as (s2 & E2 & H). rewrite E in E2. injection E2 as <-. specialize (H n). rewrite N in H. assert (B := stat_active ops _ _ E). cbn [stat_new st_active] in B. fold (recording ops) in B. rewrite A in B. cbn [stat_step]. rewrite B. unfold stat_get in H. rewrite H. reflexivity.
Qed.

(** * Stopwatch *)
Section W.
Variable cps : R.
Notation wstep := (@watch_step Rnum cps).
(** Calls that concern measurement [n]. *)
Definition about (n : string) (o : wop Rnum) : bool :=
  match o with WStart m _ | WStop m _ | WPause m _ | WReset m => String.eqb m n | _ => true end.
Definition agree (n : string) (s t : watch Rnum) : Prop := w_active s = w_active t /\ w_mode s = w_mode t /\ w_recs s n = w_recs t n.
Lemma wstep_total s o : exists s', after (wstep s o) = Some s'.
Proof.
  destruct o; cbn [watch_step]; try (eexists; reflexivity); destruct (w_active s); try (eexists; reflexivity).
  - unfold watch_start. destruct (take_time _ _); eexists; reflexivity.
  - unfold watch_stop. destruct (take_time _ _); [|eexists; reflexivity]. destruct (w_recs s n); [|eexists; reflexivity]. destruct (neqb _ _); eexists; reflexivity.
  - unfold watch_pause. destruct (w_recs s n); [|eexists; reflexivity]. destruct (neqb _ _); eexists; reflexivity.
  - destruct (w_recs s n); eexists; reflexivity.
Qed.
Ltac crunch A M := rewrite ?A, ?M.
Lemma agree_about n s t o s' t' : about n o = true -> agree n s t -> after (wstep s o) = Some s' -> after (wstep t o) = Some t' -> agree n s' t'.
Proof.
  intros HA (A1 & A2 & A3) E F. unfold agree. destruct s as [sa sm sr], t as [ta tm tr]. cbn [w_active w_mode w_recs] in *. subst ta tm.
  destruct o; cbn [about] in HA; try (apply String.eqb_eq in HA; subst n0); cbn [watch_step w_active w_mode w_recs] in *;
    try (destruct sa; [|injection E as <-; injection F as <-; cbn; auto]).
  - unfold watch_start in *. cbn [w_active w_mode w_recs] in *. rewrite <- A3 in F. destruct (take_time sm c); injection E as <-; injection F as <-; cbn; unfold sput; rewrite String.eqb_refl; auto.
  - unfold watch_stop in *. cbn [w_active w_mode w_recs] in *. rewrite <- A3 in F. destruct (take_time sm c); [|injection E as <-; injection F as <-; cbn; auto].
    destruct (sr n) as [d|] eqn:D; [|injection E as <-; injection F as <-; cbn; split; [reflexivity|split; [reflexivity|congruence]]].
    destruct (neqb (p_start d) _); injection E as <-; injection F as <-; cbn; unfold sput; rewrite ?String.eqb_refl; split; auto; split; auto; congruence.
  - unfold watch_pause in *. cbn [w_active w_mode w_recs] in *. rewrite <- A3 in F.
    destruct (sr n) as [d|] eqn:D; [|injection E as <-; injection F as <-; cbn; split; [reflexivity|split; [reflexivity|congruence]]].
    destruct (neqb (p_start d) _); injection E as <-; injection F as <-; cbn; unfold sput; rewrite ?String.eqb_refl; split; auto; split; auto; congruence.
  - rewrite <- A3 in F. destruct (sr n) as [d|] eqn:D; injection E as <-; injection F as <-; cbn; unfold sput; rewrite ?String.eqb_refl; split; auto; split; auto; congruence.
  - injection E as <-. injection F as <-. cbn. unfold seach. rewrite A3. auto.
  - injection E as <-. injection F as <-. cbn. auto.
  - injection E as <-. injection F as <-. cbn. auto.
  - injection E as <-. injection F as <-. cbn. auto.
Qed.
Lemma agree_other n s o s' : about n o = false -> after (wstep s o) = Some s' -> agree n s' s.
Proof.
  intros HA E. unfold agree. destruct o; cbn [about] in HA; try discriminate; cbn [watch_step] in E; (destruct (w_active s) eqn:A; [|injection E as <-; rewrite A; auto]).
  - unfold watch_start in E. destruct (take_time _ _); injection E as <-; cbn; unfold sput; rewrite String.eqb_sym, HA, ?A; auto.
  - unfold watch_stop in E. destruct (take_time _ _); [|injection E as <-; rewrite A; auto]. destruct (w_recs s n0); [|injection E as <-; rewrite A; auto].
    destruct (neqb _ _); injection E as <-; cbn; unfold sput; rewrite ?(String.eqb_sym n), ?HA, ?A; auto.
  - unfold watch_pause in E. destruct (w_recs s n0); [|injection E as <-; rewrite A; auto].
    destruct (neqb _ _); injection E as <-; cbn; unfold sput; rewrite ?(String.eqb_sym n), ?HA, ?A; auto.
  - destruct (w_recs s n0); injection E as <-; cbn; unfold sput; rewrite ?(String.eqb_sym n), ?HA, ?A; auto.
Qed.
(** Other measurements do not matter. *)
Theorem watch_independent n ops : forall s t, agree n s t -> exists s' t', run wstep s ops = Some s' /\ run wstep t (filter (about n) ops) = Some t' /\ agree n s' t'.
Proof.
  induction ops as [|o ops IH]; intros s t H; [exists s, t; auto|]. destruct (wstep_total s o) as [s1 E1]. cbn [run filter]. rewrite E1. destruct (about n o) eqn:A.
  - destruct (wstep_total t o) as [t1 F1]. cbn [run]. rewrite F1. apply IH. exact (agree_about n s t o s1 t1 A H E1 F1).
  - apply IH. destruct (agree_other n s o s1 A E1) as (B1 & B2 & B3). destruct H as (C1 & C2 & C3). unfold agree. repeat split; congruence.
Qed.
(** ** Start / stop pairs *)
Definition raw (m : wmode) (c : clk Rnum) : R := match m with CPU_TIME => c_k c | _ => c_t c end.
Definition seconds (m : wmode) (x : R) : R := match m with CPU_TIME => (x / cps)%R | _ => x end.
Definition elapsed (m : wmode) (p : clk Rnum * clk Rnum) : R := seconds m (raw m (snd p) - raw m (fst p))%R.
Definition pairs (n : string) (l : list (clk Rnum * clk Rnum)) : list (wop Rnum) := flat_map (fun p => [WStart n (fst p); WStop n (snd p)]) l.
Definition wshows (d : pdata Rnum) (l : list R) : Prop :=
  p_total d = sumR l /\ p_last d = lastR l /\ p_stops d = length l /\ p_max d = recmax l /\ p_min d = recmin l.
(** Nothing measured yet, or reset. *)
Definition fresh (n : string) (s : watch Rnum) : Prop := w_recs s n = None \/ w_recs s n = Some p_zero.
Lemma pairs_run s0 n m l : w_active s0 = true -> w_mode s0 = m -> fresh n s0 -> m <> NONE -> (forall p, In p l -> raw m (fst p) <> 0%R) ->
  exists s, run wstep s0 (pairs n l) = Some s /\ w_active s = true /\ w_mode s = m /\
    (if l then fresh n s else exists d, w_recs s n = Some d /\ wshows d (map (elapsed m) l)).
Proof.
  intros HA0 HM0 HF0 Hm. induction l as [|p l IH] using rev_ind; intros Hp.
  - exists s0. cbn. auto.
  - destruct IH as (s & E & A & M & D); [intros x Hx; apply Hp, in_or_app; left; exact Hx|].
    unfold pairs in *. rewrite flat_map_app, run_app, E. cbn [flat_map app run].
    assert (Z : raw m (fst p) <> 0%R) by (apply Hp, in_or_app; right; left; reflexivity).
    assert (W : exists d0, (match w_recs s n with Some d => d | None => p_zero end) = d0 /\ wshows d0 (map (elapsed m) l)).
    { destruct l as [|q l]; [exists p_zero; destruct D as [D|D]; rewrite D; (split; [reflexivity|repeat split])|]. destruct D as (d & -> & H). exists d. auto. }
    destruct W as (d0 & W1 & W2).
    assert (S1 : wstep s (WStart n (fst p)) = Ret (mkW true m (sput (w_recs s) n (@mkPd Rnum (raw m (fst p)) (p_total d0) (p_min d0) (p_max d0) (p_last d0) false (p_stops d0)))) tt).
    { cbn [watch_step]. rewrite A. unfold watch_start. rewrite M, W1, A. destruct m; [contradiction| |]; reflexivity. }
    rewrite S1. cbn [after].
    assert (S2 : wstep (mkW true m (sput (w_recs s) n (@mkPd Rnum (raw m (fst p)) (p_total d0) (p_min d0) (p_max d0) (p_last d0) false (p_stops d0)))) (WStop n (snd p))
       = Ret (mkW true m (sput (sput (w_recs s) n (@mkPd Rnum (raw m (fst p)) (p_total d0) (p_min d0) (p_max d0) (p_last d0) false (p_stops d0))) n
            (p_lap (@mkPd Rnum (raw m (fst p)) (p_total d0) (p_min d0) (p_max d0) (p_last d0) false (p_stops d0)) (elapsed m p)))) tt).
    { cbn [watch_step w_active]. unfold watch_stop. cbn [w_mode w_recs]. unfold sput at 1. rewrite String.eqb_refl. cbn [p_start].
      assert (X : @neqb Rnum (raw m (fst p)) 0%R = false) by (apply Reqb_false; exact Z). cbn [Rnum n0 car] in *. rewrite X. destruct m; [contradiction| |]; reflexivity. }
    rewrite S2. cbn [after]. eexists. split; [reflexivity|]. split; [reflexivity|]. split; [reflexivity|].
    destruct (l ++ [p]) eqn:L; [destruct l; discriminate|]. rewrite <- L. cbn [w_recs]. unfold sput at 1. rewrite String.eqb_refl. eexists. split; [reflexivity|].
    destruct W2 as (H1 & H2 & H3 & H4 & H5). rewrite map_app. cbn [map]. unfold wshows, p_lap. cbn [p_total p_last p_stops p_max p_min].
    split; [rewrite H1, sumR_app; cbn; unfold sumR; cbn; lra|]. split; [unfold lastR; rewrite last_last; reflexivity|]. split; [rewrite app_length, H3; cbn; lia|].
    rewrite recmax_snoc, recmin_snoc, H4, H5. split; reflexivity.
Qed.
Lemma watch_measures_from s0 n m l ops : w_active s0 = true -> w_mode s0 = m -> fresh n s0 -> m <> NONE -> l <> [] -> (forall p, In p l -> raw m (fst p) <> 0%R) -> filter (about n) ops = pairs n l ->
  exists s d, run wstep s0 ops = Some s /\ w_recs s n = Some d /\
    p_total d = sumR (map (elapsed m) l) /\ p_last d = lastR (map (elapsed m) l) /\ p_stops d = length l /\
    ((exists p, In p l /\ (0 <= elapsed m p)%R) -> is_max (p_max d) (map (elapsed m) l)) /\
    ((forall p, In p l -> elapsed m p <> 0%R) -> is_min (p_min d) (map (elapsed m) l)).
Proof.
  intros HA0 HM0 HF0 Hm HL Hp HF. destruct (pairs_run s0 n m l HA0 HM0 HF0 Hm Hp) as (t & F & _ & _ & D). destruct l as [|q l]; [contradiction|]. destruct D as (d & D & H1 & H2 & H3 & H4 & H5).
  destruct (watch_independent n ops s0 s0) as (s & t2 & E & F2 & _ & _ & G); [repeat split|]. rewrite HF, F in F2. injection F2 as <-.
  exists s, d. split; [exact E|]. split; [congruence|]. split; [exact H1|]. split; [exact H2|]. split; [rewrite H3; apply map_length|]. split.
  - intros (p & Hin & P). rewrite H4. apply recmax_true. exists (elapsed m p). split; [apply in_map; exact Hin|exact P].
  - intros N. rewrite H5. apply recmin_true; [discriminate|]. left. intros C. apply in_map_iff in C as (p & C & Hin). exact (N p Hin C).
Qed.
Theorem watch_measures n m l ops : m <> NONE -> l <> [] -> (forall p, In p l -> raw m (fst p) <> 0%R) -> filter (about n) ops = pairs n l ->
  exists s d, run wstep (watch_new m) ops = Some s /\ w_recs s n = Some d /\
    p_total d = sumR (map (elapsed m) l) /\ p_last d = lastR (map (elapsed m) l) /\ p_stops d = length l /\
    ((exists p, In p l /\ (0 <= elapsed m p)%R) -> is_max (p_max d) (map (elapsed m) l)) /\
    ((forall p, In p l -> elapsed m p <> 0%R) -> is_min (p_min d) (map (elapsed m) l)).
Proof. intros. apply watch_measures_from; try assumption; try reflexivity. left. reflexivity. Qed.
(** The same after a reset in any state. *)
Theorem watch_after_reset s0 n m l ops : w_active s0 = true -> w_mode s0 = m -> w_recs s0 n <> None -> m <> NONE -> l <> [] -> (forall p, In p l -> raw m (fst p) <> 0%R) -> filter (about n) ops = pairs n l ->
  exists s d, run wstep s0 (WReset n :: ops) = Some s /\ w_recs s n = Some d /\
    p_total d = sumR (map (elapsed m) l) /\ p_last d = lastR (map (elapsed m) l) /\ p_stops d = length l /\
    ((exists p, In p l /\ (0 <= elapsed m p)%R) -> is_max (p_max d) (map (elapsed m) l)) /\
    ((forall p, In p l -> elapsed m p <> 0%R) -> is_min (p_min d) (map (elapsed m) l)).
Proof.
  intros HA HM HR Hm HL Hp HF. cbn [run watch_step]. rewrite HA. destruct (w_recs s0 n) as [d0|]; [|contradiction]. cbn [after]. apply watch_measures_from; try assumption; try reflexivity.
  right. cbn [w_recs]. unfold sput. rewrite String.eqb_refl. reflexivity.
Qed.
(** The same after set_mode and a reset of this or of all measurements, in any state. *)
Definition resets (n : string) (o : wop Rnum) : Prop := o = WReset n \/ o = WResetAll.
Theorem watch_after_mode s0 n m l o ops : w_active s0 = true -> w_recs s0 n <> None -> resets n o -> m <> NONE -> l <> [] -> (forall p, In p l -> raw m (fst p) <> 0%R) -> filter (about n) ops = pairs n l ->
  exists s d, run wstep s0 (WMode m :: o :: ops) = Some s /\ w_recs s n = Some d /\
    p_total d = sumR (map (elapsed m) l) /\ p_last d = lastR (map (elapsed m) l) /\ p_stops d = length l /\
    ((exists p, In p l /\ (0 <= elapsed m p)%R) -> is_max (p_max d) (map (elapsed m) l)) /\
    ((forall p, In p l -> elapsed m p <> 0%R) -> is_min (p_min d) (map (elapsed m) l)).
Proof.
  intros HA HR Ho Hm HL Hp HF. destruct Ho as [->| ->]; cbn [run watch_step after w_active w_recs w_mode]; rewrite HA; (destruct (w_recs s0 n) as [d0|] eqn:D; [|contradiction]); cbn [after]; apply watch_measures_from; try assumption; try reflexivity; right; cbn [w_recs].
  - unfold sput. rewrite String.eqb_refl. reflexivity.
  - unfold seach. rewrite D. reflexivity.
Qed.
(** Nothing is measured while the stopwatch is off; turning it on keeps the records. *)
Definition turns_on (o : wop Rnum) : Prop := o = WOn.
Theorem watch_off ops : forall s, Forall (fun o => ~ turns_on o) ops -> exists s', run wstep s (WOff :: ops ++ [WOn]) = Some s' /\ w_active s' = true /\ forall n, w_recs s' n = w_recs s n.
Proof.
  assert (H : forall s, w_active s = false -> Forall (fun o => ~ turns_on o) ops -> exists s', run wstep s ops = Some s' /\ forall n, w_recs s' n = w_recs s n).
  { induction ops as [|o ops IH]; intros s A F; [exists s; auto|]. inversion F as [|? ? F1 F2]; subst.
    assert (X : exists s1, wstep s o = Ret s1 tt /\ w_active s1 = false /\ w_recs s1 = w_recs s).
    { destruct o; cbn [watch_step]; rewrite ?A; try (exists s; auto; fail); [contradiction F1; reflexivity| |]; eexists; split; [reflexivity|split; [assumption||reflexivity|reflexivity]|reflexivity|split; [assumption||reflexivity|reflexivity]]. }
    destruct X as (s1 & E & A1 & R1). destruct (IH s1 A1 F2) as (s' & E' & R'). exists s'. cbn [run]. rewrite E. split; [exact E'|]. intros n. rewrite R', R1. reflexivity. }
  intros s F. destruct (H (mkW false (w_mode s) (w_recs s)) eq_refl F) as (s' & E & R). exists (mkW true (w_mode s') (w_recs s')). split; [|split; [reflexivity|exact R]].
  cbn [run watch_step after]. rewrite run_app, E. reflexivity.
Qed.
(** Calls on a measurement that was never started. *)
Theorem watch_unknown (s : watch Rnum) n c : w_active s = true -> w_recs s n = None -> wstep s (WStop n c) = Exc s /\ wstep s (WPause n c) = Exc s /\ wstep s (WReset n) = Exc s.
Proof.
  intros A H. cbn [watch_step]. rewrite A. unfold watch_stop, watch_pause. rewrite H. destruct (take_time _ _); repeat split; reflexivity.
Qed.
(** ** Pause *)
Theorem watch_pause_adds (s : watch Rnum) n (c : clk Rnum) (d : pdata Rnum) : w_active s = true -> w_recs s n = Some d -> p_start d <> 0%R -> exists s' d', wstep s (WPause n c) = Ret s' tt /\ w_recs s' n = Some d' /\
  p_total d' = (p_total d + (c_k c - p_start d))%R /\ p_start d' = p_start d.
Proof.
  intros A D Z. cbn [watch_step]. rewrite A. unfold watch_pause. rewrite D. assert (X : @neqb Rnum (p_start d) 0%R = false) by (apply Reqb_false; exact Z). cbn [Rnum n0 car] in *. rewrite X.
  eexists _, _. split; [reflexivity|]. cbn [w_recs]. unfold sput. rewrite String.eqb_refl. split; [reflexivity|]. cbn [p_total p_start]. split; reflexivity.
Qed.
Theorem watch_none_start n c : exists s, wstep (watch_new NONE) (WStart n c) = Exc s /\ w_recs s n = Some p_zero.
Proof. eexists. split; [reflexivity|]. cbn. unfold sput. rewrite String.eqb_refl. reflexivity. Qed.
(** stop does not end the measurement: every further stop counts from the same start. *)
Theorem watch_stop_again (s : watch Rnum) n (c : clk Rnum) (d : pdata Rnum) : w_active s = true -> w_mode s <> NONE -> w_recs s n = Some d -> p_start d <> 0%R -> exists s' d', wstep s (WStop n c) = Ret s' tt /\ w_recs s' n = Some d' /\
  p_total d' = (p_total d + seconds (w_mode s) (raw (w_mode s) c - p_start d))%R /\ p_start d' = p_start d.
Proof.
  intros A M D Z. cbn [watch_step]. rewrite A. unfold watch_stop. rewrite D. assert (X : @neqb Rnum (p_start d) 0%R = false) by (apply Reqb_false; exact Z). cbn [Rnum n0 car] in *. rewrite X.
  destruct (w_mode s) eqn:Y; [contradiction| |]; cbn [take_time]; eexists _, _; (split; [reflexivity|]); cbn [w_recs]; unfold sput; rewrite String.eqb_refl; (split; [reflexivity|]); split; reflexivity.
Qed.
End W.
Definition at_ (x : R) : clk Rnum := @mkClk Rnum x x.
(** From a started measurement at time a (both clocks show the same number, one tick per
    second): pause at b and stop at c, in CPU mode. *)
Lemma start_pause_stop n m cps a b c : m <> NONE -> a <> 0%R -> exists s d, run (@watch_step Rnum cps) (watch_new m) [WStart n (at_ a); WPause n (at_ b); WStop n (at_ c)] = Some s /\ w_recs s n = Some d /\
  p_total d = (b - a + seconds cps m (c - a))%R.
Proof.
  intros Hm Ha. set (s1 := mkW true m (sput (fun _ => None) n (@mkPd Rnum a 0%R 0%R 0%R 0%R false 0)) : watch Rnum).
  assert (E1 : @watch_step Rnum cps (watch_new m) (WStart n (at_ a)) = Ret s1 tt) by (destruct m; [contradiction| |]; reflexivity).
  assert (D1 : w_recs s1 n = Some (@mkPd Rnum a 0%R 0%R 0%R 0%R false 0)) by (cbn; unfold sput; rewrite String.eqb_refl; reflexivity).
  destruct (watch_pause_adds cps s1 n (at_ b) _ eq_refl D1 Ha) as (s2 & d2 & E2 & D2 & T2 & P2).
  assert (A2 : w_active s2 = true /\ w_mode s2 = m).
  { cbn [watch_step w_active s1] in E2. unfold watch_pause in E2. rewrite D1 in E2. destruct (neqb _ _); injection E2 as <-; cbn; auto. }
  destruct A2 as [A2 M2]. cbn [p_start p_total] in T2, P2.
  destruct (watch_stop_again cps s2 n (at_ c) d2 A2 ltac:(congruence) D2 ltac:(congruence)) as (s3 & d3 & E3 & D3 & T3 & _). exists s3, d3. cbn [run]. rewrite E1. cbn [after]. rewrite E2. cbn [after]. rewrite E3. cbn [after]. split; [reflexivity|]. split; [exact D3|].
  rewrite T3, T2, P2, M2. cbn [at_ c_k c_t]. destruct m; cbn; lra.
Qed.
(** Elapsed time 2 is reported as 3; and in real time, with the CPU clock at 0, a pause
    after one second of a measurement begun at a counts - a. *)
Theorem watch_pause_refuted : exists s d, run (@watch_step Rnum 1%R) (watch_new CPU_TIME) [WStart "m" (at_ 1); WPause "m" (at_ 2); WStop "m" (at_ 3)] = Some s /\ w_recs s "m" = Some d /\ p_total d = 3%R.
Proof. destruct (start_pause_stop "m" CPU_TIME 1%R 1%R 2%R 3%R) as (s & d & E & D & T); [discriminate|lra|]. exists s, d. split; [exact E|]. split; [exact D|]. rewrite T. cbn. lra. Qed.
Theorem watch_pause_real_refuted : forall cps a, (0 < a)%R -> exists s d, run (@watch_step Rnum cps) (watch_new REAL_TIME) [WStart "m" (@mkClk Rnum a 0%R); WPause "m" (@mkClk Rnum (a + 1)%R 0%R)] = Some s /\
  w_recs s "m" = Some d /\ p_total d = (- a)%R.
Proof.
  intros cps a Ha. set (s1 := mkW true REAL_TIME (sput (fun _ => None) "m" (@mkPd Rnum a 0%R 0%R 0%R 0%R false 0)) : watch Rnum).
  assert (E1 : @watch_step Rnum cps (watch_new REAL_TIME) (WStart "m" (@mkClk Rnum a 0%R)) = Ret s1 tt) by reflexivity.
  assert (D1 : w_recs s1 "m" = Some (@mkPd Rnum a 0%R 0%R 0%R 0%R false 0)) by reflexivity.
  destruct (watch_pause_adds cps s1 "m" (@mkClk Rnum (a + 1)%R 0%R) _ eq_refl D1 ltac:(cbn; lra)) as (s2 & d2 & E2 & D2 & T2 & _). exists s2, d2. cbn [run]. rewrite E1. cbn [after]. rewrite E2. split; [reflexivity|]. split; [exact D2|]. rewrite T2. cbn. lra.
Qed.
Theorem watch_double_stop_refuted : exists s d, run (@watch_step Rnum 1%R) (watch_new REAL_TIME) [WStart "m" (at_ 1); WStop "m" (at_ 2); WStop "m" (at_ 3)] = Some s /\ w_recs s "m" = Some d /\ p_total d = 3%R /\ p_stops d = 2.
Proof.
  set (s1 := mkW true REAL_TIME (sput (fun _ => None) "m" (@mkPd Rnum 1%R 0%R 0%R 0%R 0%R false 0)) : watch Rnum).
  assert (E1 : @watch_step Rnum 1%R (watch_new REAL_TIME) (WStart "m" (at_ 1)) = Ret s1 tt) by reflexivity.
  assert (X : Reqb 1 0 = false) by (apply Reqb_false; lra).
  eexists _, _. cbn [run]. rewrite E1. cbn [after watch_step w_active s1]. unfold watch_stop. cbn [take_time w_mode w_recs s1]. unfold sput. cbn [String.eqb Ascii.eqb Bool.eqb p_start]. cbn [Rnum neqb n0]. rewrite X. cbn [after w_active w_mode w_recs take_time]. cbn [String.eqb Ascii.eqb Bool.eqb p_lap p_start]. rewrite X.
  split; [reflexivity|]. cbn [after w_recs]. cbn [String.eqb Ascii.eqb Bool.eqb]. split; [reflexivity|]. cbn. split; [lra|reflexivity].
Qed.
