(** C108: what a foot of the exercise biped is asked to follow, and what its contact holds. *)
From Coq Require Import String List Arith Bool ZArith Lia Reals Lra.
From Verif Require Import Scalar Outcome Linalg Constraint FormPhysSpec RSum Masks MaskReal FrameTasks FrameTasksP FrameTasksR FrameRefute FrameSetters ContactMotion ContactMotionP Walking FootRefs FootRefsP.
From Verif Require ConstTraj.
Import ListNotations.
Open Scope string_scope.
Open Scope list_scope.
Open Scope nat_scope.

(** ** C108 *)
(** After any calls, rejected ones included: the task follows [g], the contact holds [H]. *)
Theorem C108_history : forall log3, reads9 log3 -> forall jc jt cname tname nv kpc kdc kpt kdt (M : pose) l,
  exists s0 s g H, @foot_new Rnum Rtrunc log3 jc jt cname tname nv kpc kdc kpt kdt M = Some s0 /\ run (@foot_step Rnum Rtrunc log3) s0 l = Some s /\
  follows M l g /\ kept M l H /\ k_on s = stands l /\
  forall d, exists s', @foot_step Rnum Rtrunc log3 s (Period d) = Ret s' tt /\
    (forall y, sat (h_c (x_h (k_task s'))) y <-> tracks log3 kpt kdt g d (accel nv (d_J d) (d_a d) y)) /\
    (stands l = true -> forall y, sat (h_c (x_h (k_contact s'))) y <-> tracks log3 kpc kdc (still H) d (accel nv (d_J d) (d_a d) y)).
Proof. exact foot_history. Qed.
Print Assumptions C108_history.
(** [follows] and [kept] leave no choice. *)
Theorem C108_one : forall (M : pose) l, (forall g g', follows M l g -> follows M l g' -> g = g') /\ (forall H H', kept M l H -> kept M l H' -> H = H').
Proof. intros M l. split; intros; [eapply follows_one|eapply kept_one]; eassumption. Qed.
Print Assumptions C108_one.

(** The walking loop: [before left N ph ref (-pre) ds] are the calls made before the
    computeProblemData of iteration length ds - pre. *)
Theorem C108_loop : forall left N ph ref i0 ds d, @foot_loop Rnum left N ph ref i0 (ds ++ [d]) = before left N ph ref i0 ds ++ [Period d].
Proof. exact before_loop. Qed.
Print Assumptions C108_loop.
Theorem C108_walk_task : forall left N ph ref (M : pose), (forall k, k < N -> let '(p, v, a) := ref k in three p /\ three v /\ three a) -> forall pre ds, 0 < N ->
  let i := (Z.of_nat (List.length ds) - Z.of_nat pre)%Z in
  follows M (before left N ph ref (- Z.of_nat pre) ds) (if (i <? 0)%Z then still origin else planned M ref (Nat.min (Z.to_nat i) (N - 1))).
Proof. exact walk_follows. Qed.
Print Assumptions C108_walk_task.
Theorem C108_walk_contact : forall left N ph ref (M : pose) pre ds, let i := (Z.of_nat (List.length ds) - Z.of_nat pre)%Z in
  (forall j d, lands left N ph j -> (Z.of_nat j <= i)%Z -> (forall m, j < m -> (Z.of_nat m <= i)%Z -> ~ lands left N ph m) -> nth_error ds (pre + j - 1) = Some d ->
     kept M (before left N ph ref (- Z.of_nat pre) ds) (d_R d, d_p d)) /\
  ((forall m, (Z.of_nat m <= i)%Z -> ~ lands left N ph m) -> kept M (before left N ph ref (- Z.of_nat pre) ds) M).
Proof. exact walk_kept. Qed.
Print Assumptions C108_walk_contact.
(** A contact added after the period with data [d] pulls, in the next one, to where the foot was
    in [d]: a foot at rest is let alone only where it was one period ago. *)
Theorem C108_landed : forall log3, reads9 log3 -> forall jc jt cname tname nv kpc kdc kpt kdt (M : pose) l d,
  exists s0 s, @foot_new Rnum Rtrunc log3 jc jt cname tname nv kpc kdc kpt kdt M = Some s0 /\ run (@foot_step Rnum Rtrunc log3) s0 (l ++ [Period d; Land]) = Some s /\
  forall d', exists s', @foot_step Rnum Rtrunc log3 s (Period d') = Ret s' tt /\
    (forall y, sat (h_c (x_h (k_contact s'))) y <-> tracks log3 kpc kdc (still (d_R d, d_p d)) d' (accel nv (d_J d') (d_a d') y)) /\
    ((0 < kpc)%R -> orthogonal (d_R d') -> (forall i, i < 3 -> d_v d' i = 0%R) -> forall y, sat (h_c (x_h (k_contact s'))) y ->
       (forall i, i < 3 -> accel nv (d_J d') (d_a d') y i = 0%R) -> forall i, i < 3 -> d_p d' i = d_p d i).
Proof. exact landed. Qed.
Print Assumptions C108_landed.

(** *** Cases *)
Definition level : rmat := fun i j => if i =? j then 1%R else 0%R.
(** A quarter turn about z. *)
Definition turned : rmat := fun i j => match i, j with 0, 1 => (-1)%R | 1, 0 => 1%R | 2, 2 => 1%R | _, _ => 0%R end.
Lemma level_orth : orthogonal level.
Proof. intros v i Hi. unfold rot, tr, level. destruct i as [|[|[|i]]]; [| | |lia]; cbn; split; ring. Qed.
Definition rest (Q : rmat) (x : R) : fdata Rnum := @mkFd Rnum Q (fun i => if i =? 0 then x else 0%R) (fun _ => 0%R) (fun _ => 0%R) (fun i j => if i =? j then 1%R else 0%R).
Definition col (x : R) : vec Rnum := @mkVec Rnum 3 (fun _ => x).
Definition plan (k : nat) : vec Rnum * vec Rnum * vec Rnum := (col (INR k), col 1, col 2).
Definition steps (k : nat) : phase := if k =? 1 then PLeft else PRight.
Lemma plan_ok N k : k < N -> let '(p, v, a) := plan k in three p /\ three v /\ three a.
Proof. intros _. cbn. repeat split; left; reflexivity. Qed.
Definition M1 : pose := (level, fun _ => 1%R).
(** Four columns, one iteration before the walk: the left foot is taken up at 0, lands at 1, is
    taken up again at 2; its contact then holds where it was at 0. *)
Example C108_case : let ds := [rest level 0; rest turned 5; rest level 6] in
  before true 4 steps plan (-1) ds = [Period (rest level 0); Leave; Aim (col 0) (col 1) (col 2); Period (rest turned 5); Land; Aim (col 1) (col 1) (col 2); Period (rest level 6); Leave; Aim (col (1 + 1)) (col 1) (col 2)] /\
  lands true 4 steps 1 /\ kept M1 (before true 4 steps plan (-1) ds) (turned, d_p (rest turned 5)) /\
  follows M1 (before true 4 steps plan (-1) ds) (mkTarget (level, entry (col (1 + 1))) (lin3 (col 1)) (lin3 (col 2))).
Proof.
  cbv zeta. split; [reflexivity|]. assert (L : lands true 4 steps 1) by (split; [lia|split; [reflexivity|split; [discriminate|reflexivity]]]). split; [exact L|]. split.
  - apply (proj1 (C108_walk_contact true 4 steps plan M1 1 [rest level 0; rest turned 5; rest level 6]) 1 (rest turned 5) L); [cbn; lia| |reflexivity].
    intros m Hm Hm' (_ & _ & _ & X). cbn [List.length] in Hm'. assert (m = 2) by lia. subst m. discriminate.
  - assert (F := C108_walk_task true 4 steps plan M1 (plan_ok 4) 1 [rest level 0; rest turned 5; rest level 6] ltac:(lia)). exact F.
Qed.

(** "A foot taken up keeps, during its flight, the orientation it had on the ground": the reference
    given by remove_contact_LF is replaced before it is used, by one with the orientation of the
    constructor. *)
Theorem C108_orientation_refuted : ~ (forall left N ph ref (M : pose) pre ds l p v a, 0 < N -> (forall k, k < N -> let '(p, v, a) := ref k in three p /\ three v /\ three a) ->
  before left N ph ref (- Z.of_nat pre) ds = l ++ [Leave; Aim p v a] -> forall g, follows M (before left N ph ref (- Z.of_nat pre) ds) g ->
  forall i j, i < 3 -> j < 3 -> fst (g_M g) i j = fst (seen M l) i j).
Proof.
  intros H. assert (F := C108_walk_task false 3 steps plan M1 (plan_ok 3) 0 [rest turned 0] ltac:(lia)).
  assert (X := H false 3 steps plan M1 0 [rest turned 0] [Aim (col 0) (col 1) (col 2); Period (rest turned 0)] (col 1) (col 1) (col 2) ltac:(lia) (plan_ok 3) eq_refl _ F 0 0 ltac:(lia) ltac:(lia)).
  cbn in X. unfold level, turned in X. cbn in X. lra.
Qed.
Print Assumptions C108_orientation_refuted.
(** "A contact added by add_contact_LF holds the foot where it is." *)
Theorem C108_holds_refuted : ~ (forall log3, reads9 log3 -> forall jc jt cname tname nv kpc kdc kpt kdt (M : pose) l s0 s d s' y, (0 < kpc)%R ->
  @foot_new Rnum Rtrunc log3 jc jt cname tname nv kpc kdc kpt kdt M = Some s0 -> run (@foot_step Rnum Rtrunc log3) s0 (l ++ [Land]) = Some s ->
  @foot_step Rnum Rtrunc log3 s (Period d) = Ret s' tt -> orthogonal (d_R d) -> (forall i, i < 6 -> d_v d i = 0%R) -> (forall i, i < 6 -> accel nv (d_J d) (d_a d) y i = 0%R) ->
  sat (h_c (x_h (k_contact s'))) y).
Proof.
  intros H. set (log0 := (fun _ _ => 0%R) : rmat -> rvec). assert (L9 : reads9 log0) by (intros A B _ i _; reflexivity).
  destruct (C108_landed log0 L9 (vzero 0) (vzero 0) "c" "t" 6 1%R 2%R 1%R 2%R M1 [] (rest level 1)) as (s0 & s & E0 & E & T). destruct (T (rest level 0)) as (s' & E' & _ & Q).
  assert (Z : forall i, i < 6 -> accel 6 (d_J (rest level 0)) (d_a (rest level 0)) (fun _ => 0%R) i = 0%R).
  { intros i Hi. unfold accel, rest. cbn. ring. }
  assert (S := H log0 L9 (vzero 0) (vzero 0) "c" "t" 6 1%R 2%R 1%R 2%R M1 [Period (rest level 1)] s0 s (rest level 0) s' (fun _ => 0%R) ltac:(lra) E0 E E' level_orth (fun i _ => eq_refl) Z).
  assert (X := Q ltac:(lra) level_orth (fun i _ => eq_refl) (fun _ => 0%R) S (fun i Hi => Z i ltac:(lia)) 0 ltac:(lia)). cbn in X. lra.
Qed.
Print Assumptions C108_holds_refuted.
