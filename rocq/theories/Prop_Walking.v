(** C91 and C92: the biped of the exercises and its walking loop. *)
From Coq Require Import String List Arith Bool ZArith QArith Reals Lra Permutation.
From Verif Require Import Scalar Outcome Linalg Constraint Formulation FormSpec FormMain FormCheck Walking WalkingSpec WalkingP WalkingQ WalkingR
  FormPhysSpec Contacts ContactSpec ContactProofs ContactReal ContactRefute PlotCop.
Import ListNotations.
Open Scope string_scope.
Open Scope list_scope.
Open Scope nat_scope.

(** ** C91 the problem of the biped is a function of the feet in contact *)
Section C91.
Context {K : num}.
Variables (dbg : bool) (C : conf K) (nv na : nat) (M0 : mat K) (H0 : vec K) (fmin fmax : K) (nf nf' : vec K -> K) (e0 e1 : env K).
Local Notation right := (six "contact_rfoot" fmin fmax nf).
Local Notation left := (six "contact_lfoot" fmin fmax nf').
Local Notation start := (biped_new dbg C nv na M0 H0 right left e0 e1).
Definition fine : Prop := robot_ok nv M0 H0 /\ conf_ok C /\ sizes_ok nv e0 /\ sizes_ok nv e1.
Lemma right_six : is_six right "contact_rfoot". Proof. repeat split. Qed.
Lemma left_six : is_six left "contact_lfoot". Proof. repeat split. Qed.

Lemma ready : fine -> exists b, start = Some b /\ b_rf b = true /\ b_lf b = true /\ stands C nv na true true (b_f b).
Proof.
  intros (Hr & Hc & S0 & S1).
  destruct (start_ok dbg (fun _ => True) C nv na M0 H0 _ _ Hr right_six left_six e0 e1 Hc S0 S1 I I) as (b & E & A & B & F). exists b.
  split; [exact E|]. split; [exact A|]. split; [exact B|]. unfold fit in F. rewrite A, B in F.
  exact (up_stands dbg (fun _ => True) C nv na M0 H0 _ _ Hr right_six left_six _ _ _ F).
Qed.
End C91.

Theorem C91_ready : forall K dbg (C : conf K) nv na M0 H0 fmin fmax nf nf' (e0 e1 : env K),
  fine C nv M0 H0 e0 e1 ->
  exists b, biped_new dbg C nv na M0 H0 (six "contact_rfoot" fmin fmax nf) (six "contact_lfoot" fmin fmax nf') e0 e1 = Some b /\
    b_rf b = true /\ b_lf b = true /\ stands C nv na true true (b_f b).
Proof. exact @ready. Qed.
Print Assumptions C91_ready.

(** Whatever the order of the calls: the problem is the one of the two flags, and every
    further call by the rules returns. *)
Theorem C91_stands : forall K dbg (C : conf K) nv na M0 H0 fmin fmax nf nf' (e0 e1 : env K) b0 b,
  fine C nv M0 H0 e0 e1 ->
  biped_new dbg C nv na M0 H0 (six "contact_rfoot" fmin fmax nf) (six "contact_lfoot" fmin fmax nf') e0 e1 = Some b0 ->
  reach (bstep dbg C) (fun b o => data_rule b o /\ flag_rule b o) b0 b ->
  stands C nv na (b_rf b) (b_lf b) (b_f b) /\
  (forall o, data_rule b o /\ flag_rule b o -> exists b' r, bstep dbg C b o = Ret b' r).
Proof.
  intros K dbg C nv na M0 H0 fmin fmax nf nf' e0 e1 b0 b (Hr & Hc & S0 & S1).
  exact (always_stands dbg C nv na M0 H0 _ _ Hr (right_six fmin fmax nf) (left_six fmin fmax nf') e0 e1 b0 b Hc S0 S1).
Qed.
Print Assumptions C91_stands.

(** The walking loop, when the first phase is on the right foot: no call fails, and the
    feet in contact follow contact_phase. *)
Theorem C91_walk : forall K dbg (C : conf K) nv na M0 H0 fmin fmax nf nf' (e0 e1 : env K) N ph b0 i0,
  ((n0 : K) <? n0)%num = false -> ph 0 = PRight -> fine C nv M0 H0 e0 e1 ->
  biped_new dbg C nv na M0 H0 (six "contact_rfoot" fmin fmax nf) (six "contact_lfoot" fmin fmax nf') e0 e1 = Some b0 -> (i0 <= 0)%Z ->
  forall l, let prog := loop N ph i0 l ++ switch N ph (i0 + Z.of_nat (List.length l)) in
  (forall l1 o l2 b, prog = l1 ++ o :: l2 -> served dbg C b0 l1 b -> data_rule b o -> exists b' r, bstep dbg C b o = Ret b' r) /\
  (forall b, served dbg C b0 prog b ->
     (b_rf b, b_lf b) = support N ph (i0 + Z.of_nat (List.length l)) /\ stands C nv na (b_rf b) (b_lf b) (b_f b)).
Proof.
  intros K dbg C nv na M0 H0 fmin fmax nf nf' e0 e1 N ph b0 i0 Hz Hp (Hr & Hc & S0 & S1).
  exact (walk dbg C nv na M0 H0 _ _ Hr (right_six fmin fmax nf) (left_six fmin fmax nf') Hz N ph Hp e0 e1 b0 i0 Hc S0 S1).
Qed.
Print Assumptions C91_walk.

(** The loop removes the left foot at i = 0 without looking at contact_phase. If the first
    phase is on the left foot, the robot stands on the wrong one, the next switch adds the
    right foot a second time, and the following removal is an assertion failure in debug
    builds. *)
Theorem C91_left_first_refuted : forall K dbg (C : conf K) nv na M0 H0 fmin fmax nf nf' (e0 e1 : env K) b0 N ph t e g b1,
  ((n0 : K) <? n0)%num = false -> fine C nv M0 H0 e0 e1 ->
  biped_new dbg C nv na M0 H0 (six "contact_rfoot" fmin fmax nf) (six "contact_lfoot" fmin fmax nf') e0 e1 = Some b0 ->
  3 <= N -> ph 0 = PLeft -> ph 1 = PRight -> served dbg C b0 (iteration N ph 0 t e g) b1 ->
  (b_rf b1 = true /\ b_lf b1 = false) /\
  @switch K N ph 1 = [AddRF n0; RemoveLF n0] /\
  exists b2 r, bstep dbg C b1 (AddRF n0) = Ret b2 r /\
    Permutation (contact_names (b_f b2)) ["contact_rfoot"; "contact_rfoot"] /\
    (dbg = true -> bstep dbg C b2 (RemoveLF n0) = Undef).
Proof.
  intros K dbg C nv na M0 H0 fmin fmax nf nf' e0 e1 b0 N ph t e g b1 Hz (Hr & Hc & S0 & S1).
  exact (left_first dbg C nv na M0 H0 _ _ Hr (right_six fmin fmax nf) (left_six fmin fmax nf') e0 e1 b0 N ph t e g b1 Hz Hc S0 S1).
Qed.
Print Assumptions C91_left_first_refuted.

(** add_contact_RF does not look at contact_RF_active. *)
Theorem C91_twice_refuted : forall K dbg (C : conf K) nv na M0 H0 fmin fmax nf nf' (e0 e1 : env K) b0 b T,
  fine C nv M0 H0 e0 e1 ->
  biped_new dbg C nv na M0 H0 (six "contact_rfoot" fmin fmax nf) (six "contact_lfoot" fmin fmax nf') e0 e1 = Some b0 ->
  reach (bstep dbg C) (fun b o => data_rule b o /\ flag_rule b o) b0 b -> b_rf b = true ->
  exists b' r, bstep dbg C b (AddRF T) = Ret b' r /\ b_rf b' = true /\ b_lf b' = b_lf b /\
    Permutation (contact_names (b_f b')) ("contact_rfoot" :: feet true (b_lf b)) /\ nVar (b_f b') = nVar (b_f b) + 12.
Proof.
  intros K dbg C nv na M0 H0 fmin fmax nf nf' e0 e1 b0 b T (Hr & Hc & S0 & S1).
  exact (twice dbg C nv na M0 H0 _ _ Hr (right_six fmin fmax nf) (left_six fmin fmax nf') e0 e1 b0 b T Hc S0 S1).
Qed.
Print Assumptions C91_twice_refuted.

(** With a transition time the flag is lowered at once while the contact stays, and adding
    the foot again, which the flag allows, duplicates it. *)
Theorem C91_transition_refuted : forall K dbg (C : conf K) nv na M0 H0 fmin fmax nf nf' (e0 e1 : env K) b0 b T T',
  fine C nv M0 H0 e0 e1 ->
  biped_new dbg C nv na M0 H0 (six "contact_rfoot" fmin fmax nf) (six "contact_lfoot" fmin fmax nf') e0 e1 = Some b0 ->
  reach (bstep dbg C) (fun b o => data_rule b o /\ flag_rule b o) b0 b -> b_rf b = true -> (n0 <? T)%num = true ->
  exists b1 r1, bstep dbg C b (RemoveRF T) = Ret b1 r1 /\ b_rf b1 = false /\
    contact_names (b_f b1) = contact_names (b_f b) /\ nVar (b_f b1) = nVar (b_f b) /\
    ~ stands C nv na (b_rf b1) (b_lf b1) (b_f b1) /\
    flag_rule b1 (AddRF T') /\
    exists b2 r2, bstep dbg C b1 (AddRF T') = Ret b2 r2 /\
      Permutation (contact_names (b_f b2)) ("contact_rfoot" :: feet true (b_lf b)).
Proof.
  intros K dbg C nv na M0 H0 fmin fmax nf nf' e0 e1 b0 b T T' (Hr & Hc & S0 & S1).
  exact (later dbg C nv na M0 H0 _ _ Hr (right_six fmin fmax nf) (left_six fmin fmax nf') e0 e1 b0 b T T' Hc S0 S1).
Qed.
Print Assumptions C91_transition_refuted.

(** A robot with 8 velocities, 2 of them actuated, the weights of ex_4_conf.py, zero
    matrices of the announced sizes with [k] force variables. *)
Definition exC : conf Qnum := @mkConf Qnum 1%Q 0%Q (1 # 10000)%Q 1%Q 100%Q (1 # 10000)%Q (1 # 100000)%Q 0%Q 0%Q 2.
Definition exE (k : nat) : env Qnum :=
  let eqn r n := mkConstr "" CEq (mzero r n) (vzero r) (vzero 0) (vzero 0) in
  mkEnv (mzero 8 8) (vzero 8) (fun _ => (mzero 6 8, vzero 6)) (fun _ => mzero 6 12)
        (fun _ _ _ => (mzero 17 12, vzero 17, vzero 17)) (fun _ => (mzero 6 12, vzero 6))
        (fun id => match id with 0 => eqn 3 8 | 1 => eqn 3 k | 2 => eqn 3 8 | 3 => eqn 2 8 | _ => eqn 6 8 end)
        (fun _ => "") (fun _ => vzero 8).
Definition exS dbg := biped_new dbg exC 8 2 (mzero 8 8) (vzero 8) (@six Qnum "contact_rfoot" 0%Q 1000000%Q (fun _ => 0%Q))
  (@six Qnum "contact_lfoot" 0%Q 1000000%Q (fun _ => 0%Q)) (exE 0) (exE 0).
Lemma exE_uniform k : uniform (exE k).
Proof. intros o a b a' b'. repeat split. Qed.
Lemma ex_fine : fine exC 8 (mzero 8 8) (vzero 8) (exE 0) (exE 0).
Proof. repeat split; discriminate || reflexivity. Qed.

(** Checking a program by computation. *)
Definition ruleb (b : biped Qnum) (o : bop Qnum) : bool :=
  match o with
  | Compute _ e => env_okb (b_f b) e
  | Get g x => (vlen x =? nVar (b_f b)) && match g with GForceOf _ => negb (f_dec (b_f b)) || (vlen (f_f (b_f b)) =? f_k (b_f b)) | _ => true end
  | _ => true
  end.
Definition even_op (o : bop Qnum) : Prop := match o with Compute _ e => uniform e | _ => True end.
Lemma ruleb_ok b o : even_op o -> ruleb b o = true -> data_rule b o.
Proof.
  destruct o; cbn; auto.
  - intros U H. apply env_okb_ok; assumption.
  - intros _ H. apply andb_true_iff in H. destruct H as (H1 & H2). apply Nat.eqb_eq in H1. split; [exact H1|].
    destruct g; auto. intros D. rewrite D in H2. cbn in H2. apply Nat.eqb_eq. exact H2.
Qed.
Fixpoint go dbg (b : biped Qnum) (l : list (bop Qnum)) : option (biped Qnum) :=
  match l with
  | [] => Some b
  | o :: l' => if ruleb b o then match bstep dbg exC b o with Ret b1 _ => go dbg b1 l' | _ => None end else None
  end.
Lemma go_served dbg l : Forall even_op l -> forall b b', go dbg b l = Some b' -> served dbg exC b l b'.
Proof.
  induction 1 as [|o l Ho _ IH]; intros b b' E; cbn [go] in E; [injection E as <-; constructor|].
  destruct (ruleb b o) eqn:R; [|discriminate]. destruct (bstep dbg exC b o) as [b1 r| |] eqn:S; try discriminate.
  econstructor; [apply ruleb_ok; eassumption|exact S|]. apply IH. exact E.
Qed.
Definition see (o : option (biped Qnum)) : option (bool * bool * nat * list string) :=
  match o with Some b => Some (b_rf b, b_lf b, nVar (b_f b), contact_names (b_f b)) | None => None end.
Lemma ex_served dbg l v : Forall even_op l -> see (match exS dbg with Some b => go dbg b l | None => None end) = Some v ->
  exists b0 b, exS dbg = Some b0 /\ served dbg exC b0 l b /\ (b_rf b, b_lf b, nVar (b_f b), contact_names (b_f b)) = v.
Proof.
  intros F. destruct (exS dbg) as [b0|]; [|discriminate]. destruct (go dbg b0 l) as [b|] eqn:E; [|discriminate].
  intros H. exists b0, b. split; [reflexivity|]. split; [apply go_served; assumption|]. injection H as H. exact H.
Qed.
(** Two iterations on both feet, three on the right foot, two on the left, the last data
    point, with getters; then the one of a plan that starts on the left foot. *)
Definition exP : nat -> phase := fun i => if i <? 3 then PRight else PLeft.
Definition exL : list (Qnum * env Qnum * list (getter * vec Qnum)) :=
  [(0%Q, exE 24, []); (0%Q, exE 24, [(GForce, vzero 32)]); (0%Q, exE 12, [(GForceOf "contact_rfoot", vzero 20); (GAcc, vzero 20)]);
   (0%Q, exE 12, []); (0%Q, exE 12, []); (0%Q, exE 12, [(GForceOf "contact_lfoot", vzero 20)]); (0%Q, exE 12, [])].
Example C91_case : forall dbg, fine exC 8 (mzero 8 8) (vzero 8) (exE 0) (exE 0) /\
  exists b0 b, exS dbg = Some b0 /\ served dbg exC b0 (@loop Qnum 6 exP (-2) exL) b /\
    (b_rf b, b_lf b, nVar (b_f b), contact_names (b_f b)) = (false, true, 20, ["contact_lfoot"]).
Proof.
  intros dbg. split; [exact ex_fine|]. apply ex_served; [repeat constructor; apply exE_uniform|]. destruct dbg; vm_compute; reflexivity.
Qed.
Example C91_case_left : forall dbg, exists b0 b, exS dbg = Some b0 /\
  served dbg exC b0 (@iteration Qnum 6 (fun i => if i =? 0 then PLeft else PRight) 0 0%Q (exE 12) []) b /\
  (b_rf b, b_lf b, nVar (b_f b), contact_names (b_f b)) = (true, false, 20, ["contact_rfoot"]).
Proof.
  intros dbg. apply ex_served; [repeat constructor; apply exE_uniform|]. destruct dbg; vm_compute; reflexivity.
Qed.

(** ** C92 the centre of pressure plotted by the walking exercise *)
(** Columns 4 and 3 of the 6d wrench divided by the normal force. The points of the foot are
    in the plane z = h. The values have the opposite sign of the centre of pressure, shifted
    by h F / F_z. *)
Theorem C92_plotted : forall dbg name (s : rcont) h f c, made rsq K6 dbg name s -> k_n s = rv 0 0 1 ->
  (forall i, i < 4 -> mget (k_pts s) 2 i = h) -> applied s f 2 <> 0%R ->
  centre_of_pressure 4 (fun i a => mget (k_pts s) a i) (vget (k_n s)) h f c ->
  (c 0%nat = (h * applied s f 0%nat - applied s f 4%nat) / applied s f 2%nat)%R /\
  (c 1%nat = (h * applied s f 1%nat + applied s f 3%nat) / applied s f 2%nat)%R /\
  (fst (plotted (applied s f)) = h * applied s f 0%nat / applied s f 2%nat - c 0%nat)%R /\
  (snd (plotted (applied s f)) = h * applied s f 1%nat / applied s f 2%nat - c 1%nat)%R.
Proof. exact plotted_meaning. Qed.
Print Assumptions C92_plotted.

(** The plots compare these values with the edges of the foot; there are feasible forces
    for which they lie outside although the centre of pressure is on the edge of the foot. *)
Theorem C92_outside_refuted : forall dbg name lxp lxn lyp lyn lz mu fmin fmax,
  (lxn < lxp)%R -> (0 < mu)%R -> (fmin <= fmax)%R -> (0 < fmax)%R -> (2 * mu * fmax <= big)%R ->
  exists (s : rcont) f c,
    cont_new rsq K6 dbg (fun _ _ => 0%R) name (foot_points lxp lxn lyp lyn lz) (rv 0 0 1) mu fmin fmax = Some s /\
    sat (k_ineq s) f /\ (0 < applied s f 2)%R /\
    centre_of_pressure 4 (fun i a => mget (k_pts s) a i) (vget (k_n s)) (- lz) f c /\
    c 0 = lxp /\ fst (plotted (applied s f)) = (- lxp)%R /\ (fst (plotted (applied s f)) < - lxn)%R.
Proof. exact plotted_outside. Qed.
Print Assumptions C92_outside_refuted.
(** The foot of ex_4_conf.py. *)
Example C92_case : ((0.05 < 0.10) /\ (0 < 0.3) /\ (0 <= 1000000) /\ (0 < 1000000) /\ (2 * 0.3 * 1000000 <= big))%R.
Proof. unfold big. lra. Qed.
