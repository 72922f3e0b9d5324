(** What a foot of the exercise biped is asked to follow, after any calls. *)
From Coq Require Import String List Arith Bool ZArith Lia Reals Lra.
From Verif Require Import Scalar Outcome Linalg Constraint FormPhysSpec RSum Masks MaskReal FrameTasks FrameTasksP FrameTasksR FrameRefute FrameSetters ContactMotion ContactMotionP Walking FootRefs.
From Verif Require ConstTraj.
Import ListNotations.
Open Scope list_scope.
Open Scope nat_scope.

(** * Specification *)
Notation pose := (ConstTraj.place Rnum).
(** Placement at the last computeProblemData of [l], [M] if there is none. *)
Definition seen (M : pose) (l : list (fcall Rnum)) : pose := fold_left (fun M c => match c with Period d => (d_R d, d_p d) | _ => M end) l M.
(** Arguments of set_LF_3d_ref: vectors of three entries, or of one that stands for three. *)
Definition three (p : vec Rnum) : Prop := vlen p = 3 \/ vlen p = 1.
Definition entry (p : vec Rnum) (i : nat) : R := if vlen p =? 1 then vget p 0 else vget p i.
(** Calls that give the task of the foot a reference. *)
Definition guides (c : fcall Rnum) : Prop := match c with Leave => True | Aim p v a => three p /\ three v /\ three a | _ => False end.
(** A reference: placement, velocity and acceleration (linear, then angular), world axes. *)
Record target := mkTarget { g_M : pose; g_v : rvec; g_a : rvec }.
Definition still (M : pose) : target := mkTarget M (fun _ => 0%R) (fun _ => 0%R).
Definition origin : pose := ((fun i j => if i =? j then 1%R else 0%R), (fun _ => 0%R)).
(** Position [p], velocity [v], acceleration [a]; orientation of [M], at rest. *)
Definition lin3 (v : vec Rnum) (i : nat) : R := if i <? 3 then entry v i else 0%R.
Definition toward (M : pose) (p v a : vec Rnum) : target := mkTarget (fst M, entry p) (lin3 v) (lin3 a).
(** What the task of the foot follows after the calls [l]; the foot was at [M] in the constructor. *)
Inductive follows (M : pose) : list (fcall Rnum) -> target -> Prop :=
| f_never l : Forall (fun c => ~ guides c) l -> follows M l (still origin)
| f_aim l l' p v a : three p -> three v -> three a -> Forall (fun c => ~ guides c) l' -> follows M (l ++ Aim p v a :: l') (toward M p v a)
| f_leave l l' : Forall (fun c => ~ guides c) l' -> follows M (l ++ Leave :: l') (still (seen M l)).
(** What its contact holds. *)
Inductive kept (M : pose) : list (fcall Rnum) -> pose -> Prop :=
| k_never l : ~ In Land l -> kept M l M
| k_land l l' : ~ In Land l' -> kept M (l ++ Land :: l') (seen M l).
(** Whether the contact is in the formulation. *)
Definition stands (l : list (fcall Rnum)) : bool := fold_left (fun b c => match c with Leave => false | Land => true | _ => b end) l true.
(** The law of a task with gains [kp], [kd] on a frame with data [d]: local axes. *)
Definition tracks (log3 : rmat -> rvec) (kp kd : R) (g : target) (d : fdata Rnum) (a : rvec) : Prop :=
  (forall i, i < 3 -> a i = (kp * rot (tr (d_R d)) (vminus (snd (g_M g)) (d_p d)) i + kd * (rot (tr (d_R d)) (g_v g) i - d_v d i) + rot (tr (d_R d)) (g_a g) i)%R) /\
  (forall i, i < 3 -> ang a i = (kp * rot_error log3 (d_R d) (fst (g_M g)) i + kd * (rot (tr (d_R d)) (ang (g_v g)) i - ang (d_v d) i) + rot (tr (d_R d)) (ang (g_a g)) i)%R).
(** The walking loop: the planned columns. *)
Definition planned (M : pose) (ref : nat -> vec Rnum * vec Rnum * vec Rnum) (k : nat) : target := let '(p, v, a) := ref k in toward M p v a.

(** * Proofs *)
Section P.
Variable log3 : rmat -> rvec.
Hypothesis L9 : reads9 log3.
Variables (jc jt : vec Rnum) (cname tname : string) (nv : nat) (kpc kdc kpt kdt : R) (M : pose).
Notation xstep := (@se3_step Rnum Rtrunc log3).
Notation fstep := (@foot_step Rnum Rtrunc log3).
Notation new := (@foot_new Rnum Rtrunc log3 jc jt cname tname nv kpc kdc kpt kdt M).

Definition aimed (g : target) (s : se3t Rnum) : Prop := @aims Rnum s (fst (g_M g)) (snd (g_M g)) (g_v g) (g_a g).
Record well (name : string) (kp kd : R) (s : se3t Rnum) : Prop := mkWell {
  we_made : @se3_made Rnum Rtrunc log3 name nv s; we_mask : x_mask s = ones_n 6;
  we_kp : forall i, i < 6 -> vget (x_kp s) i = kp; we_kd : forall i, i < 6 -> vget (x_kd s) i = kd; we_loc : x_local s = true }.
Lemma well_conf name kp kd s o s' : well name kp kd s -> xstep s o = Ret s' tt -> se3_conf s' = se3_conf s -> well name kp kd s'.
Proof.
  intros [W1 W2 W3 W4 W5] E C. unfold se3_conf in C. injection C as C1 C2 C3 C4. split; [eapply made_go; eassumption|congruence|rewrite C1; exact W3|rewrite C2; exact W4|congruence].
Qed.
Lemma aims_refs (s s' : se3t Rnum) g : se3_refs s' = se3_refs s -> aimed g s -> aimed g s'.
Proof. unfold aimed, se3_refs, aims. intros E. injection E as -> -> -> -> _ _ _. auto. Qed.
Lemma well_compute name kp kd s d : well name kp kd s -> exists s', xstep s (XCompute d) = Ret s' tt /\ well name kp kd s' /\ forall g, aimed g s -> aimed g s'.
Proof.
  intros W. assert (X : exists s', xstep s (XCompute d) = Ret s' tt).
  { apply (se3_defined Rtrunc log3 name nv s d (we_made _ _ _ _ W)). rewrite (we_mask _ _ _ _ W), ones_dim, ons_ones. split; [cbn; lia|rewrite seq_length; lia]. }
  destruct X as [s' E]. exists s'. split; [exact E|]. destruct (se3_setters Rtrunc log3 s) as (_ & _ & _ & _ & _ & S6). destruct (S6 d s' E) as [C Rf].
  split; [eapply well_conf; eassumption|]. intros g. apply aims_refs. exact Rf.
Qed.
Lemma well_ref name kp kd s val der sec Q p : well name kp kd s -> holds val Q p -> vlen der = 6 -> vlen sec = 6 ->
  exists s', xstep s (XRef val der sec) = Ret s' tt /\ well name kp kd s' /\ aimed (mkTarget (Q, p) (vget der) (vget sec)) s'.
Proof.
  intros W H L1 L2. destruct (se3_references Rtrunc log3 s) as (S1 & _). destruct (S1 Q p val der sec H L1 L2) as (s' & E & A & _ & C & _).
  exists s'. split; [exact E|]. split; [eapply well_conf; eassumption|exact A].
Qed.
Lemma well_place name kp kd s Q p : well name kp kd s -> exists s', xstep s (XRefSE3 Q p) = Ret s' tt /\ well name kp kd s' /\ aimed (still (Q, p)) s'.
Proof.
  intros W. destruct (se3_references Rtrunc log3 s) as (_ & S2). destruct (S2 Q p) as (s' & E & A & _ & C & _). exists s'. split; [exact E|]. split; [eapply well_conf; eassumption|exact A].
Qed.
Lemma well_new name jk kp kd : exists s0 s, se3_new Rtrunc jk name nv = Some s0 /\ run xstep s0 [XKp (mkVec 6 (fun _ => kp)); XKd (mkVec 6 (fun _ => kd))] = Some s /\
  well name kp kd s /\ aimed (still origin) s.
Proof.
  destruct (se3_safe log3 jk name nv) as (s0 & E & _). destruct (se3_initial Rtrunc jk name nv s0 E) as (C & Ai & _).
  destruct (se3_setters Rtrunc log3 s0) as (S1 & _). destruct (S1 (mkVec 6 (fun _ => kp)) eq_refl) as (s1 & E1 & C1 & R1 & _).
  destruct (se3_setters Rtrunc log3 s1) as (_ & S2 & _). destruct (S2 (mkVec 6 (fun _ => kd)) eq_refl) as (s2 & E2 & C2 & R2 & _).
  exists s0, s2. split; [exact E|]. split; [cbn [run]; rewrite E1; cbn [after]; rewrite E2; reflexivity|].
  unfold se3_conf in C, C1, C2. injection C as A1 A2 A3 A4. injection C1 as B1 B2 B3 B4. injection C2 as D1 D2 D3 D4. split.
  - split; [eapply made_go; [eapply made_go; [exists jk, s0; split; [exact E|constructor]|exact E1]|exact E2]|rewrite D4, B4, A4; reflexivity|rewrite D1, B1; reflexivity|rewrite D2; reflexivity|congruence].
  - apply (aims_refs s1); [exact R2|]. apply (aims_refs s0); [exact R1|]. exact Ai.
Qed.

(** The state of the foot after the calls [l]. *)
Record knows (l : list (fcall Rnum)) (s : foot Rnum) : Prop := mkKnows {
  kn_task : well tname kpt kdt (k_task s); kn_con : well cname kpc kdc (k_contact s);
  kn_follow : exists g, follows M l g /\ aimed g (k_task s);
  kn_keep : exists H, kept M l H /\ aimed (still H) (k_contact s);
  kn_data : k_data s = seen M l; kn_on : k_on s = stands l;
  kn_pos : vlen (k_pos s) = 12 /\ forall i, 3 <= i < 12 -> vget (k_pos s) i = vget (se3_to_vec (fst M) (snd M)) i;
  kn_vel : vlen (k_vel s) = 6 /\ forall i, 3 <= i < 6 -> vget (k_vel s) i = 0%R;
  kn_acc : vlen (k_acc s) = 6 /\ forall i, 3 <= i < 6 -> vget (k_acc s) i = 0%R;
  kn_sample : vlen (ConstTraj.t_val (k_sample s)) = 12 /\ vlen (ConstTraj.t_der (k_sample s)) = 6 /\ vlen (ConstTraj.t_sec (k_sample s)) = 6 }.
Lemma seen_app l l' : seen M (l ++ l') = seen (seen M l) l'.
Proof. unfold seen. apply fold_left_app. Qed.
Lemma stands_one l c : stands (l ++ [c]) = match c with Leave => false | Land => true | _ => stands l end.
Proof. unfold stands. rewrite fold_left_app. reflexivity. Qed.
Lemma follows_more l c g : follows M l g -> ~ guides c -> follows M (l ++ [c]) g.
Proof.
  intros F N. assert (X : forall l', Forall (fun c => ~ guides c) l' -> Forall (fun c => ~ guides c) (l' ++ [c])) by (intros l' H; apply Forall_app; auto).
  destruct F as [l H|l l' p v a H1 H2 H3 H|l l' H].
  - apply f_never. auto.
  - rewrite <- app_assoc. cbn [app]. apply f_aim; auto.
  - rewrite <- app_assoc. cbn [app]. apply f_leave; auto.
Qed.
Lemma kept_more l c H : kept M l H -> c <> Land -> kept M (l ++ [c]) H.
Proof.
  intros F N. assert (X : forall l', ~ In Land l' -> ~ In Land (l' ++ [c])) by (intros l' A B; apply in_app_iff in B; destruct B as [B|[B|[]]]; congruence || auto).
  destruct F as [l A|l l' A]; [apply k_never; auto|]. rewrite <- app_assoc. cbn [app]. apply k_land; auto.
Qed.
Lemma three_dec p : three p \/ ~ three p.
Proof. unfold three. destruct (Nat.eq_dec (vlen p) 3); [auto|]. destruct (Nat.eq_dec (vlen p) 1); [auto|]. right. lia. Qed.
Lemma put_spec (a p : vec Rnum) : match @head_put Rnum a p with
  | Some x => three p /\ vlen x = vlen a /\ (forall i, i < 3 -> vget x i = entry p i) /\ (forall i, 3 <= i -> vget x i = vget a i)
  | None => ~ three p end.
Proof.
  unfold head_put, three, entry. destruct (Nat.eqb_spec (vlen p) 3) as [A|A]; cbn [orb].
  - split; [auto|]. split; [reflexivity|]. cbn [vget]. rewrite A. cbn [Nat.eqb]. split; intros i Hi.
    + apply Nat.ltb_lt in Hi. rewrite Hi. reflexivity.
    + apply Nat.ltb_ge in Hi. rewrite Hi. reflexivity.
  - destruct (Nat.eqb_spec (vlen p) 1) as [B|B].
    + split; [auto|]. split; [reflexivity|]. cbn [vget]. split; intros i Hi.
      * apply Nat.ltb_lt in Hi. rewrite Hi. reflexivity.
      * apply Nat.ltb_ge in Hi. rewrite Hi. reflexivity.
    + lia.
Qed.
Lemma lin3_head (y a v : vec Rnum) : (forall i, i < 3 -> vget y i = entry v i) -> (forall i, 3 <= i -> vget y i = vget a i) -> (forall i, 3 <= i < 6 -> vget a i = 0%R) -> forall i, i < 6 -> vget y i = lin3 v i.
Proof. intros A B Z i Hi. unfold lin3. destruct (Nat.ltb_spec i 3); [apply A; assumption|]. rewrite B by assumption. apply Z. lia. Qed.
Lemma knows_step l s o : knows l s -> exists s', after (fstep s o) = Some s' /\ knows (l ++ [o]) s'.
Proof.
  intros [T C (g & Fg & Ag) (H & Kh & Ah) D On (P1 & P2) (V1 & V2) (A1 & A2) (S1 & S2 & S3)]. destruct o as [| |p v a|d].
  - destruct (well_ref tname kpt kdt (k_task s) (se3_to_vec (fst (k_data s)) (snd (k_data s))) (vzero 6) (vzero 6) (fst (k_data s)) (snd (k_data s)) T (holds_vec _ _) eq_refl eq_refl) as (t & E & W & A).
    cbn [foot_step ConstTraj.se3_set ConstTraj.t_val ConstTraj.t_der ConstTraj.t_sec]. rewrite E. eexists. split; [reflexivity|]. split; cbn [k_task k_contact k_data k_on k_pos k_vel k_acc k_sample]; auto.
    + exists (still (seen M l)). split; [apply (f_leave M l []); constructor|]. rewrite <- D. exact A.
    + exists H. split; [apply kept_more; [exact Kh|discriminate]|exact Ah].
    + rewrite seen_app. exact D.
    + rewrite stands_one. reflexivity.
  - destruct (well_place cname kpc kdc (k_contact s) (fst (k_data s)) (snd (k_data s)) C) as (c & E & W & A).
    cbn [foot_step six_step]. rewrite E. eexists. split; [reflexivity|]. split; cbn [k_task k_contact k_data k_on k_pos k_vel k_acc k_sample]; auto.
    + exists g. split; [apply follows_more; [exact Fg|exact (fun x => x)]|exact Ag].
    + exists (seen M l). split; [apply (k_land M l []); exact (fun x => x)|]. rewrite <- D. exact A.
    + rewrite seen_app. exact D.
    + rewrite stands_one. reflexivity.
  - cbn [foot_step]. assert (X := put_spec (k_pos s) p). assert (Y := put_spec (k_vel s) v). assert (Z := put_spec (k_acc s) a).
    assert (NG : ~ (three p /\ three v /\ three a) -> exists g0, follows M (l ++ [Aim p v a]) g0 /\ aimed g0 (k_task s)).
    { intros N. exists g. split; [apply follows_more; [exact Fg|exact N]|exact Ag]. }
    assert (KK : exists H0, kept M (l ++ [Aim p v a]) H0 /\ aimed (still H0) (k_contact s)) by (exists H; split; [apply kept_more; [exact Kh|discriminate]|exact Ah]).
    assert (DD : k_data s = seen M (l ++ [Aim p v a])) by (rewrite seen_app; exact D).
    assert (OO : k_on s = stands (l ++ [Aim p v a])) by (rewrite stands_one; exact On).
    destruct (@head_put Rnum (k_pos s) p) as [x|].
    2:{ exists s. split; [reflexivity|]. split; auto. apply NG. tauto. }
    destruct X as (X0 & X1 & X2 & X3).
    assert (PX : vlen x = 12 /\ forall i, 3 <= i < 12 -> vget x i = vget (se3_to_vec (fst M) (snd M)) i) by (split; [congruence|intros i Hi; rewrite X3 by lia; apply P2; exact Hi]).
    destruct (@head_put Rnum (k_vel s) v) as [y|].
    2:{ eexists. split; [reflexivity|]. split; cbn [k_task k_contact k_data k_on k_pos k_vel k_acc k_sample]; auto. apply NG. tauto. }
    destruct Y as (Y0 & Y1 & Y2 & Y3).
    assert (PY : vlen y = 6 /\ forall i, 3 <= i < 6 -> vget y i = 0%R) by (split; [congruence|intros i Hi; rewrite Y3 by lia; apply V2; exact Hi]).
    destruct (@head_put Rnum (k_acc s) a) as [z|].
    2:{ eexists. split; [reflexivity|]. split; cbn [k_task k_contact k_data k_on k_pos k_vel k_acc k_sample]; auto. apply NG. tauto. }
    destruct Z as (Z0 & Z1 & Z2 & Z3).
    assert (PZ : vlen z = 6 /\ forall i, 3 <= i < 6 -> vget z i = 0%R) by (split; [congruence|intros i Hi; rewrite Z3 by lia; apply A2; exact Hi]).
    rewrite S1, S2, S3, (proj1 PX), (proj1 PY), (proj1 PZ). cbn [Nat.eqb andb].
    assert (HO : holds x (fst M) (entry p)).
    { destruct (@holds_vec Rnum (fst M) (snd M)) as (_ & _ & HR). split; [apply PX|]. split; [exact X2|]. intros i j Hi Hj. rewrite (proj2 PX) by lia. apply HR; assumption. }
    destruct (well_ref tname kpt kdt (k_task s) x y z (fst M) (entry p) T HO (proj1 PY) (proj1 PZ)) as (t & E & W & A).
    rewrite E. eexists. split; [reflexivity|]. split; cbn [k_task k_contact k_data k_on k_pos k_vel k_acc k_sample ConstTraj.t_val ConstTraj.t_der ConstTraj.t_sec]; auto.
    + exists (toward M p v a). split; [apply (f_aim M l []); auto|]. destruct A as (B1 & B2 & B3 & B4). unfold aimed, toward. cbn [g_M g_v g_a fst snd]. split; [exact B1|]. split; [exact B2|].
      cbn [g_M g_v g_a fst snd] in *. split; intros i Hi; [rewrite B3 by exact Hi; apply (lin3_head y (k_vel s)); assumption|rewrite B4 by exact Hi; apply (lin3_head z (k_acc s)); assumption].
    + split; [apply PX|]. split; [apply PY|apply PZ].
  - destruct (well_compute tname kpt kdt (k_task s) d T) as (t & E & W & A). destruct (well_compute cname kpc kdc (k_contact s) d C) as (c & E' & W' & A').
    assert (F' : exists g0, follows M (l ++ [Period d]) g0 /\ aimed g0 t) by (exists g; split; [apply follows_more; [exact Fg|exact (fun x => x)]|apply A; exact Ag]).
    cbn [foot_step six_step]. rewrite E. assert (OO : k_on s = stands (l ++ [Period d])) by (rewrite stands_one; exact On). destruct (k_on s).
    + rewrite E'. eexists. split; [reflexivity|]. split; cbn [k_task k_contact k_data k_on k_pos k_vel k_acc k_sample]; auto.
      * exists H. split; [apply kept_more; [exact Kh|discriminate]|apply A'; exact Ah].
      * rewrite seen_app. reflexivity.
    + eexists. split; [reflexivity|]. split; cbn [k_task k_contact k_data k_on k_pos k_vel k_acc k_sample]; auto.
      * exists H. split; [apply kept_more; [exact Kh|discriminate]|exact Ah].
      * rewrite seen_app. reflexivity.
Qed.
Lemma knows_run l : forall l0 s, knows l0 s -> exists s', run fstep s l = Some s' /\ knows (l0 ++ l) s'.
Proof.
  induction l as [|o l IH]; intros l0 s A; [exists s; rewrite app_nil_r; split; [reflexivity|exact A]|].
  destruct (knows_step l0 s o A) as (s1 & E & A1). destruct (IH _ _ A1) as (s' & E' & A'). exists s'. split; [cbn [run]; rewrite E; exact E'|]. rewrite <- app_assoc in A'. exact A'.
Qed.
Lemma knows_new : exists s, new = Some s /\ knows [] s /\ k_on s = true.
Proof.
  unfold foot_new. destruct (well_new cname jc kpc kdc) as (c0 & c1 & Ec & Rc & Wc & Ac). destruct (well_new tname jt kpt kdt) as (t0 & t1 & Et & Rt & Wt & At).
  destruct (well_place cname kpc kdc c1 (fst M) (snd M) Wc) as (c & E & W & A). unfold six_new. rewrite Ec. cbn [obind].
  assert (X : run (@six_step Rnum Rtrunc log3) c0 [@MKp Rnum jc (@mkVec Rnum 6 (fun _ => kpc)); @MKd Rnum jc (@mkVec Rnum 6 (fun _ => kdc)); @MRef Rnum (fst M) (snd M)] = Some c).
  { cbn [run] in Rc. cbn [run six_step]. destruct (after (xstep c0 (XKp (@mkVec Rnum 6 (fun _ => kpc))))) as [q|]; [|discriminate]. destruct (after (xstep q (XKd (@mkVec Rnum 6 (fun _ => kdc))))) as [q'|]; [|discriminate].
    injection Rc as ->. rewrite E. reflexivity. }
  rewrite X. cbn [obind]. rewrite Et. cbn [obind]. rewrite Rt. cbn [obind]. eexists. split; [reflexivity|]. split; [|reflexivity].
  split; cbn [k_task k_contact k_data k_on k_pos k_vel k_acc k_sample ConstTraj.se3_new ConstTraj.se3_set ConstTraj.t_val ConstTraj.t_der ConstTraj.t_sec vlen vzero]; auto.
  - exists (still origin). split; [apply f_never; constructor|exact At].
  - exists M. split; [apply k_never; exact (fun x => x)|exact A].
Qed.

(** ** The histories determine the references *)
Definition tdec (p : vec Rnum) : bool := (vlen p =? 3) || (vlen p =? 1).
Lemma tdec_true p : tdec p = true <-> three p.
Proof. unfold tdec, three. rewrite orb_true_iff, !Nat.eqb_eq. reflexivity. Qed.
Definition trace (st : target * pose) (c : fcall Rnum) : target * pose :=
  match c with
  | Leave => (still (snd st), snd st)
  | Land => st
  | Aim p v a => if tdec p && tdec v && tdec a then (toward M p v a, snd st) else st
  | Period d => (fst st, (d_R d, d_p d))
  end.
Lemma trace_seen l : forall st, snd (fold_left trace l st) = seen (snd st) l.
Proof.
  induction l as [|c l IH]; intros st; [reflexivity|]. cbn [fold_left]. rewrite IH. unfold seen. cbn [fold_left]. f_equal. destruct c; try reflexivity. cbn [trace]. destruct (_ && _); reflexivity.
Qed.
Lemma trace_idle l : Forall (fun c => ~ guides c) l -> forall st, fst (fold_left trace l st) = fst st.
Proof.
  induction 1 as [|c l Hc _ IH]; intros st; [reflexivity|]. cbn [fold_left]. rewrite IH. destruct c as [| |p v a|d]; cbn [trace guides] in *; try reflexivity; [tauto|].
  destruct (tdec p) eqn:Ep, (tdec v) eqn:Ev, (tdec a) eqn:Ea; cbn [andb]; try reflexivity. exfalso. apply Hc. rewrite <- !tdec_true. auto.
Qed.
Lemma follows_trace l g : follows M l g -> g = fst (fold_left trace l (still origin, M)).
Proof.
  intros F. destruct F as [l H|l l' p v a H1 H2 H3 H|l l' H].
  - rewrite trace_idle by exact H. reflexivity.
  - rewrite fold_left_app. cbn [fold_left]. rewrite trace_idle by exact H. cbn [trace]. apply tdec_true in H1, H2, H3. rewrite H1, H2, H3. reflexivity.
  - rewrite fold_left_app. cbn [fold_left]. rewrite trace_idle by exact H. cbn [trace fst]. rewrite trace_seen. reflexivity.
Qed.
Lemma follows_one l g g' : follows M l g -> follows M l g' -> g = g'.
Proof. intros A B. rewrite (follows_trace _ _ A), (follows_trace _ _ B). reflexivity. Qed.
Definition grip (st : pose * pose) (c : fcall Rnum) : pose * pose :=
  match c with Land => (snd st, snd st) | Period d => (fst st, (d_R d, d_p d)) | _ => st end.
Lemma grip_seen l : forall st, snd (fold_left grip l st) = seen (snd st) l.
Proof. induction l as [|c l IH]; intros st; [reflexivity|]. cbn [fold_left]. rewrite IH. unfold seen. cbn [fold_left]. f_equal. destruct c; reflexivity. Qed.
Lemma grip_idle l : ~ In Land l -> forall st, fst (fold_left grip l st) = fst st.
Proof. induction l as [|c l IH]; intros H st; [reflexivity|]. cbn [fold_left]. rewrite IH by (intros X; apply H; right; exact X). destruct c; try reflexivity. exfalso. apply H. left. reflexivity. Qed.
Lemma kept_grip l H : kept M l H -> H = fst (fold_left grip l (M, M)).
Proof.
  intros F. destruct F as [l A|l l' A]; [rewrite grip_idle by exact A; reflexivity|]. rewrite fold_left_app. cbn [fold_left]. rewrite grip_idle by exact A. cbn [grip fst]. rewrite grip_seen. reflexivity.
Qed.
Lemma kept_one l H H' : kept M l H -> kept M l H' -> H = H'.
Proof. intros A B. rewrite (kept_grip _ _ A), (kept_grip _ _ B). reflexivity. Qed.

(** ** The laws *)
Lemma well_tracks name kp kd g s d s' : well name kp kd s -> aimed g s -> xstep s (XCompute d) = Ret s' tt -> forall y, sat (h_c (x_h s')) y <-> tracks log3 kp kd g d (accel nv (d_J d) (d_a d) y).
Proof.
  intros [W1 W2 W3 W4 W5] (R1 & R2 & R3 & R4) E y. rewrite (se3_meaning_local log3 L9 name nv s d s' W1 W5 E y). rewrite W2. unfold tracks, local_lin, local_ang. cbn [Rnum car] in W3, W4.
  assert (RE : forall i, i < 3 -> rot_error log3 (d_R d) (x_Rd s) i = rot_error log3 (d_R d) (fst (g_M g)) i).
  { intros i Hi. unfold rot_error. apply L9; [|exact Hi]. intros a b Ha Hb. apply rot_ext. intros k Hk. apply R2; assumption. }
  assert (X1 : forall i, rot (tr (d_R d)) (vminus (x_pd s) (d_p d)) i = rot (tr (d_R d)) (vminus (snd (g_M g)) (d_p d)) i).
  { intros i. apply rot_ext. intros k Hk. unfold vminus. rewrite R1 by exact Hk. reflexivity. }
  assert (X2 : forall i, rot (tr (d_R d)) (x_vd s) i = rot (tr (d_R d)) (g_v g) i) by (intros i; apply rot_ext; intros k Hk; apply R3; lia).
  assert (X3 : forall i, rot (tr (d_R d)) (x_ad s) i = rot (tr (d_R d)) (g_a g) i) by (intros i; apply rot_ext; intros k Hk; apply R4; lia).
  assert (X4 : forall i, rot (tr (d_R d)) (ang (x_vd s)) i = rot (tr (d_R d)) (ang (g_v g)) i) by (intros i; apply rot_ext; intros k Hk; unfold ang; apply R3; lia).
  assert (X5 : forall i, rot (tr (d_R d)) (ang (x_ad s)) i = rot (tr (d_R d)) (ang (g_a g)) i) by (intros i; apply rot_ext; intros k Hk; unfold ang; apply R4; lia).
  assert (ON : forall i, i < 6 -> on (ones_n 6) i) by (intros i Hi; reflexivity).
  split; intros [A B]; (split; intros i Hi; [|]).
  - rewrite (A i Hi (ON i ltac:(lia))), W3, W4, X1, X2, X3 by lia. reflexivity.
  - rewrite (B i Hi (ON (3 + i) ltac:(lia))), W3, W4, RE, X4, X5 by lia. reflexivity.
  - intros _. rewrite (A i Hi), W3, W4, X1, X2, X3 by lia. reflexivity.
  - intros _. rewrite (B i Hi), W3, W4, RE, X4, X5 by lia. reflexivity.
Qed.
Theorem foot_history l : exists s0 s g H, new = Some s0 /\ run fstep s0 l = Some s /\ follows M l g /\ kept M l H /\ k_on s = stands l /\
  forall d, exists s', fstep s (Period d) = Ret s' tt /\
    (forall y, sat (h_c (x_h (k_task s'))) y <-> tracks log3 kpt kdt g d (accel nv (d_J d) (d_a d) y)) /\
    (stands l = true -> forall y, sat (h_c (x_h (k_contact s'))) y <-> tracks log3 kpc kdc (still H) d (accel nv (d_J d) (d_a d) y)).
Proof.
  destruct knows_new as (s0 & E0 & K0 & _). destruct (knows_run l [] s0 K0) as (s & E & [T C (g & Fg & Ag) (H & Kh & Ah) _ On _ _ _ _]). cbn [app] in *.
  exists s0, s, g, H. repeat (split; [assumption|]). intros d. destruct (well_compute tname kpt kdt (k_task s) d T) as (t & Et & _). destruct (well_compute cname kpc kdc (k_contact s) d C) as (c & Ec & _).
  cbn [foot_step six_step]. rewrite Et, On. destruct (stands l).
  - rewrite Ec. eexists. split; [reflexivity|]. cbn [k_task k_contact]. split; [intros y; exact (well_tracks _ _ _ _ _ _ _ T Ag Et y)|]. intros _ y. exact (well_tracks _ _ _ _ _ _ _ C Ah Ec y).
  - eexists. split; [reflexivity|]. cbn [k_task k_contact]. split; [intros y; exact (well_tracks _ _ _ _ _ _ _ T Ag Et y)|discriminate].
Qed.
End P.

(** ** The walking loop *)
Section W.
Variables (left : bool) (N : nat) (ph : nat -> phase) (ref : nat -> vec Rnum * vec Rnum * vec Rnum) (M : pose).
Notation loop := (@foot_loop Rnum left N ph ref).
(** Calls before computeProblemData of the iteration after those with data [ds]. *)
Definition before (i0 : Z) (ds : list (fdata Rnum)) : list (fcall Rnum) :=
  let i := (i0 + Z.of_nat (List.length ds))%Z in
  loop i0 ds ++ foot_calls left (switch N ph i) ++ (if ((0 <=? i) && (i <? Z.of_nat N))%Z then let '(p, v, a) := ref (Z.to_nat i) in [Aim p v a] else []).
Lemma loop_app ds ds' : forall i0, loop i0 (ds ++ ds') = loop i0 ds ++ loop (i0 + Z.of_nat (List.length ds))%Z ds'.
Proof.
  induction ds as [|d ds IH]; intros i0; [cbn [List.length app foot_loop]; rewrite Z.add_0_r; reflexivity|].
  cbn [app foot_loop]. rewrite IH, <- app_assoc. do 3 f_equal. cbn [List.length]. lia.
Qed.
Theorem before_loop i0 ds d : loop i0 (ds ++ [d]) = before i0 ds ++ [Period d].
Proof. rewrite loop_app. cbn [foot_loop]. unfold foot_turn, before. rewrite app_nil_r, <- !app_assoc. reflexivity. Qed.
Hypothesis Hr : forall k, k < N -> let '(p, v, a) := ref k in three p /\ three v /\ three a.
Lemma calls_guides i : (i < 0 \/ Z.of_nat N <= i)%Z -> 0 < N -> foot_calls left (@switch Rnum N ph i) = [].
Proof.
  intros H HN. unfold switch. destruct (Z.eqb_spec i 0); [lia|]. destruct (Z.ltb_spec 0 i); cbn [andb]; [|reflexivity]. destruct (Z.ltb_spec i (Z.of_nat N - 1)); [lia|reflexivity].
Qed.
Lemma follows_period l g d : follows M l g -> follows M (l ++ [Period d]) g.
Proof. intros F. apply follows_more; [exact F|exact (fun x => x)]. Qed.
Theorem walk_follows pre ds : 0 < N -> let i := (Z.of_nat (List.length ds) - Z.of_nat pre)%Z in
  follows M (before (- Z.of_nat pre) ds) (if (i <? 0)%Z then still origin else planned M ref (Nat.min (Z.to_nat i) (N - 1))).
Proof.
  intros HN. induction ds as [|d ds IH] using rev_ind; cbv zeta in *.
  - unfold before. cbn [foot_loop List.length app]. destruct pre as [|pre].
    + cbn. unfold switch. cbn [Z.eqb foot_calls flat_map]. destruct (Z.ltb_spec 0 (Z.of_nat N)); [|lia]. unfold planned. assert (R := Hr 0 HN). destruct (ref 0) as [[p v] a]. destruct R as (R1 & R2 & R3).
      apply (f_aim M _ []); auto.
    + destruct (Z.ltb_spec (Z.of_nat 0 - Z.of_nat (S pre)) 0); [|lia]. rewrite calls_guides by lia. destruct (Z.leb_spec 0 (- Z.of_nat (S pre) + Z.of_nat 0)); [lia|]. cbn [andb app]. apply f_never. constructor.
  - set (i := (Z.of_nat (List.length (ds ++ [d])) - Z.of_nat pre)%Z). unfold before at 1. replace (- Z.of_nat pre + Z.of_nat (List.length (ds ++ [d])))%Z with i by (unfold i; lia).
    assert (Ei : (Z.of_nat (List.length ds) - Z.of_nat pre = i - 1)%Z) by (unfold i; rewrite app_length; cbn [List.length]; lia). rewrite Ei in IH. rewrite before_loop.
    destruct (Z.leb_spec 0 i) as [H0|H0]; destruct (Z.ltb_spec i (Z.of_nat N)) as [H1|H1]; cbn [andb]; (destruct (Z.ltb_spec i 0); [try lia|try lia]).
    + unfold planned. replace (Nat.min (Z.to_nat i) (N - 1)) with (Z.to_nat i) by lia. assert (R := Hr (Z.to_nat i) ltac:(lia)). destruct (ref (Z.to_nat i)) as [[p v] a]. destruct R as (R1 & R2 & R3).
      rewrite app_assoc. apply (f_aim M _ []); auto.
    + rewrite calls_guides by lia. cbn [app]. rewrite !app_nil_r. apply follows_period. destruct (Z.ltb_spec (i - 1) 0); [lia|].
      replace (Nat.min (Z.to_nat i) (N - 1)) with (Nat.min (Z.to_nat (i - 1)) (N - 1)) by lia. exact IH.
    + rewrite calls_guides by lia. cbn [app]. rewrite !app_nil_r. apply follows_period. destruct (Z.ltb_spec (i - 1) 0); [|lia]. exact IH.
Qed.
(** Iterations in which the foot gets its contact back. *)
Definition lands (j : nat) : Prop := 0 < j /\ (Z.of_nat j < Z.of_nat N - 1)%Z /\ ph j <> ph (j - 1) /\ ph j = (if left then PLeft else PRight).
Lemma phase_same a b : phase_eqb a b = true <-> a = b.
Proof. destruct a, b; cbn; split; congruence. Qed.
Lemma lands_calls j : lands j -> foot_calls left (@switch Rnum N ph (Z.of_nat j)) = [Land].
Proof.
  intros (H1 & H2 & H3 & H4). unfold switch. destruct (Z.eqb_spec (Z.of_nat j) 0); [lia|]. destruct (Z.ltb_spec 0 (Z.of_nat j)); [|lia]. destruct (Z.ltb_spec (Z.of_nat j) (Z.of_nat N - 1)); [|lia].
  cbn [andb]. rewrite Nat2Z.id. destruct (phase_eqb (ph j) (ph (j - 1))) eqn:E; [apply phase_same in E; congruence|]. rewrite H4. destruct left; reflexivity.
Qed.
Lemma other_calls i : (forall j, i = Z.of_nat j -> ~ lands j) -> ~ In Land (foot_calls left (@switch Rnum N ph i)).
Proof.
  intros H. unfold switch. destruct (Z.eqb_spec i 0); [destruct left; cbn; intuition discriminate|]. destruct (Z.ltb_spec 0 i); cbn [andb]; [|exact (fun x => x)]. destruct (Z.ltb_spec i (Z.of_nat N - 1)); [|exact (fun x => x)].
  specialize (H (Z.to_nat i)). rewrite Z2Nat.id in H by lia. specialize (H eq_refl). destruct (phase_eqb (ph (Z.to_nat i)) (ph (Z.to_nat i - 1))) eqn:E; [exact (fun x => x)|].
  assert (D : ph (Z.to_nat i) <> ph (Z.to_nat i - 1)) by (intros X; apply phase_same in X; congruence).
  destruct (ph (Z.to_nat i)) eqn:P, left eqn:L; cbn; try (intuition discriminate); exfalso; apply H; repeat split; try lia; rewrite ?P; auto; destruct left; congruence.
Qed.
Lemma kept_app l l' H : kept M l H -> ~ In Land l' -> kept M (l ++ l') H.
Proof.
  intros F N'. destruct F as [l A|l l1 A]; [apply k_never|rewrite <- app_assoc; cbn [app]; apply k_land]; intros B; apply in_app_iff in B; tauto.
Qed.
Lemma no_land i : ~ In Land (if ((0 <=? i) && (i <? Z.of_nat N))%Z then let '(p, v, a) := ref (Z.to_nat i) in [Aim p v a] else []).
Proof. destruct (_ && _); [|exact (fun x => x)]. destruct (ref (Z.to_nat i)) as [[p v] a]. intros [X|[]]. discriminate. Qed.
Lemma walk_kept_step pre ds d : let i := (Z.of_nat (S (List.length ds)) - Z.of_nat pre)%Z in
  (forall j, i = Z.of_nat j -> lands j -> kept M (before (- Z.of_nat pre) (ds ++ [d])) (d_R d, d_p d)) /\
  ((forall j, i = Z.of_nat j -> ~ lands j) -> forall H, kept M (before (- Z.of_nat pre) ds) H -> kept M (before (- Z.of_nat pre) (ds ++ [d])) H).
Proof.
  intros i. unfold before at 1 3. replace (- Z.of_nat pre + Z.of_nat (List.length (ds ++ [d])))%Z with i by (unfold i; rewrite app_length; cbn [List.length]; lia). rewrite before_loop. split.
  - intros j Ej Lj. rewrite Ej at 1. rewrite lands_calls by exact Lj. cbn [app]. replace (d_R d, d_p d) with (seen M (before (- Z.of_nat pre) ds ++ [Period d])) by (rewrite seen_app; reflexivity). apply k_land. apply no_land.
  - intros Nl H K. apply kept_app; [apply kept_app; [exact K|]|]; [intros [X|[]]; discriminate|]. intros X. apply in_app_iff in X. destruct X as [X|X]; [exact (other_calls i Nl X)|exact (no_land i X)].
Qed.
Theorem walk_kept pre ds : let i := (Z.of_nat (List.length ds) - Z.of_nat pre)%Z in
  (forall j d, lands j -> (Z.of_nat j <= i)%Z -> (forall m, j < m -> (Z.of_nat m <= i)%Z -> ~ lands m) -> nth_error ds (pre + j - 1) = Some d -> kept M (before (- Z.of_nat pre) ds) (d_R d, d_p d)) /\
  ((forall m, (Z.of_nat m <= i)%Z -> ~ lands m) -> kept M (before (- Z.of_nat pre) ds) M).
Proof.
  cbv zeta. induction ds as [|d ds [IH1 IH2]] using rev_ind.
  - split; [intros j d (L & _) H; cbn [List.length] in H; lia|]. intros H. unfold before. cbn [foot_loop List.length app]. apply k_never. intros X. apply in_app_iff in X. destruct X as [X|X]; [|exact (no_land _ X)].
    revert X. apply other_calls. intros j Ej. destruct (Nat.eq_dec j 0) as [->|Nj]; [intros (L & _); lia|lia].
  - destruct (walk_kept_step pre ds d) as [S1 S2]. rewrite app_length in *. cbn [List.length] in *. split.
    + intros j d' L H Later E. destruct (Z.eq_dec (Z.of_nat (S (List.length ds)) - Z.of_nat pre) (Z.of_nat j)) as [Ej|Ej].
      * assert (d' = d) as ->. { rewrite nth_error_app2 in E by lia. replace (pre + j - 1 - List.length ds) with 0 in E by lia. cbn in E. congruence. } apply (S1 j Ej L).
      * apply S2; [intros m Em; apply Later; lia|]. apply (IH1 j); [exact L|lia|intros m A B; apply Later; lia|]. assert (Lp := proj1 L). rewrite nth_error_app1 in E by lia. exact E.
    + intros H. apply S2; [intros m Em; apply H; lia|]. apply IH2. intros m A. apply H. lia.
Qed.
End W.

(** ** The first period after a landing *)
Section L.
Variable log3 : rmat -> rvec.
Hypothesis L9 : reads9 log3.
Theorem landed jc jt cname tname nv kpc kdc kpt kdt M l d : exists s0 s, @foot_new Rnum Rtrunc log3 jc jt cname tname nv kpc kdc kpt kdt M = Some s0 /\
  run (@foot_step Rnum Rtrunc log3) s0 (l ++ [Period d; Land]) = Some s /\
  forall d', exists s', @foot_step Rnum Rtrunc log3 s (Period d') = Ret s' tt /\
    (forall y, sat (h_c (x_h (k_contact s'))) y <-> tracks log3 kpc kdc (still (d_R d, d_p d)) d' (accel nv (d_J d') (d_a d') y)) /\
    ((0 < kpc)%R -> orthogonal (d_R d') -> (forall i, i < 3 -> d_v d' i = 0%R) -> forall y, sat (h_c (x_h (k_contact s'))) y ->
       (forall i, i < 3 -> accel nv (d_J d') (d_a d') y i = 0%R) -> forall i, i < 3 -> d_p d' i = d_p d i).
Proof.
  destruct (foot_history log3 L9 jc jt cname tname nv kpc kdc kpt kdt M (l ++ [Period d; Land])) as (s0 & s & g & H & E0 & E & _ & K & _ & T). exists s0, s. split; [exact E0|]. split; [exact E|].
  assert (X : H = (d_R d, d_p d)).
  { apply (kept_one M _ _ _ K). replace (d_R d, d_p d) with (seen M (l ++ [Period d])) by (rewrite seen_app; reflexivity). replace (l ++ [Period d; Land]) with ((l ++ [Period d]) ++ [Land]) by (rewrite <- app_assoc; reflexivity).
    apply (k_land M _ []). exact (fun x => x). }
  subst H. assert (St : stands (l ++ [Period d; Land]) = true) by (unfold stands; rewrite fold_left_app; reflexivity).
  intros d'. destruct (T d') as (s' & E' & _ & Tc). exists s'. split; [exact E'|]. split; [exact (Tc St)|].
  intros Kp O V y Sy Z. apply (Tc St) in Sy. destruct Sy as [Sl _].
  assert (W : forall i, i < 3 -> rot (tr (d_R d')) (vminus (d_p d) (d_p d')) i = 0%R).
  { intros i Hi. specialize (Sl i Hi). rewrite (Z i Hi), (V i Hi) in Sl. cbn [still g_M g_v g_a snd] in Sl. rewrite !(rot_zero _ (fun _ : nat => 0%R)) in Sl by reflexivity.
    assert (Sl' : (kpc * rot (tr (d_R d')) (vminus (d_p d) (d_p d')) i = 0)%R) by lra. apply Rmult_integral in Sl'. destruct Sl'; [lra|assumption]. }
  intros i Hi. assert (Q := proj1 (O (vminus (d_p d) (d_p d')) i Hi)). rewrite (rot_zero _ _ _ W) in Q. unfold vminus in Q. lra.
Qed.
End L.
