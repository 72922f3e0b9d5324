(** The centre of pressure computed for the plots of exercizes/ex_4_walking.py. *)
From Coq Require Import String List Arith Bool QArith Reals Qreals Lia Lra.
From Verif Require Import Scalar Outcome Linalg Constraint FormPhysSpec RSum Contacts ContactSpec ContactProofs ContactReal ContactWrench ContactRefute.
Import ListNotations.
Open Scope nat_scope.

(** ex_4_walking.py:175-181 and 183-189; [w] is T.dot(force). *)
Definition plotted (w : nat -> R) : R * R := ((w 4%nat / w 2%nat)%R, (- w 3%nat / w 2%nat)%R).
(** contact_Point of tsid_biped.py:37-39. *)
Definition foot_points (lxp lxn lyp lyn lz : R) : mat Rnum :=
  @mkMat Rnum 3 4 (fun i j => match i with
    | 0 => if j <? 2 then (- lxn)%R else lxp
    | 1 => match j with 0 | 2 => (- lyn)%R | _ => lyp end
    | _ => (- lz)%R end).
(** T.dot(force) *)
Definition applied (s : rcont) (f : nat -> R) (r : nat) : R :=
  @nsum Rnum (nforce K6) (fun c => mget (k_gen s) r c * f c)%R.

Lemma plotted_meaning dbg name (s : rcont) h f c : made rsq K6 dbg name s -> k_n s = rv 0 0 1 ->
  (forall i, i < 4 -> mget (k_pts s) 2 i = h) -> applied s f 2%nat <> 0%R ->
  centre_of_pressure 4 (fun i a => mget (k_pts s) a i) (vget (k_n s)) h f c ->
  (c 0%nat = (h * applied s f 0%nat - applied s f 4%nat) / applied s f 2%nat)%R /\
  (c 1%nat = (h * applied s f 1%nat + applied s f 3%nat) / applied s f 2%nat)%R /\
  (fst (plotted (applied s f)) = h * applied s f 0%nat / applied s f 2%nat - c 0%nat)%R /\
  (snd (plotted (applied s f)) = h * applied s f 1%nat / applied s f 2%nat - c 1%nat)%R.
Proof.
  intros Hm Hn Hh Hz (Hc & Hcop). destruct (generator_meaning K6 dbg name s Hm) as (_ & _ & G).
  assert (G' : forall r, r < 6 -> applied s f r = wrench true (k_pts s) f r) by (intros r Hr; apply (G f r Hr)).
  rewrite Hn in Hc, Hcop. unfold dot, rv, v3 in Hc. cbn [vget] in Hc. assert (C2 : c 2%nat = h) by lra.
  assert (Hx := Hcop 0 ltac:(lia)). assert (Hy := Hcop 1 ltac:(lia)). unfold rv, v3, crs in Hx, Hy. cbn [vget] in Hx, Hy.
  assert (P0 := Hh 0 ltac:(lia)). assert (P1 := Hh 1 ltac:(lia)). assert (P2 := Hh 2 ltac:(lia)). assert (P3 := Hh 3 ltac:(lia)).
  unfold moment_at, crs, at_point in Hx, Hy. rewrite !rsum_S, !rsum_0 in Hx, Hy. cbn [Nat.mul Nat.add] in Hx, Hy.
  rewrite C2, P0, P1, P2, P3 in Hx, Hy.
  assert (W0 := G' 0 ltac:(lia)). assert (W1 := G' 1 ltac:(lia)). assert (W2 := G' 2 ltac:(lia)).
  assert (W3 := G' 3 ltac:(lia)). assert (W4 := G' 4 ltac:(lia)). unfold wrench, resultant, moment, crs, at_point in W0, W1, W2, W3, W4.
  cbn [Nat.ltb Nat.leb Nat.sub] in W0, W1, W2, W3, W4.
  rewrite !rsum_S, !rsum_0 in W0, W1, W2, W3, W4. cbn [Nat.mul Nat.add] in W0, W1, W2, W3, W4.
  rewrite P0, P1, P2, P3 in W3, W4.
  assert (E0 : (c 0%nat * applied s f 2%nat = h * applied s f 0%nat - applied s f 4%nat)%R) by (rewrite W0, W2, W4; lra).
  assert (E1 : (c 1%nat * applied s f 2%nat = h * applied s f 1%nat + applied s f 3%nat)%R) by (rewrite W1, W2, W3; lra).
  unfold plotted. cbn [fst snd].
  assert (D0 : (c 0%nat = (h * applied s f 0%nat - applied s f 4%nat) / applied s f 2%nat)%R) by (rewrite <- E0; field; exact Hz).
  assert (D1 : (c 1%nat = (h * applied s f 1%nat + applied s f 3%nat) / applied s f 2%nat)%R) by (rewrite <- E1; field; exact Hz).
  split; [exact D0|]. split; [exact D1|]. rewrite D0, D1. split; field; exact Hz.
Qed.

(** Forces on the front points of the foot only. *)
Definition toes (F : R) (i : nat) : R := match i with 8 | 11 => (F / 2)%R | _ => 0%R end.
Lemma plotted_outside dbg name lxp lxn lyp lyn lz mu fmin fmax :
  (lxn < lxp)%R -> (0 < mu)%R -> (fmin <= fmax)%R -> (0 < fmax)%R -> (2 * mu * fmax <= big)%R ->
  exists (s : rcont) f c,
    cont_new rsq K6 dbg (fun _ _ => 0%R) name (foot_points lxp lxn lyp lyn lz) (rv 0 0 1) mu fmin fmax = Some s /\
    sat (k_ineq s) f /\ (0 < applied s f 2%nat)%R /\
    centre_of_pressure 4 (fun i a => mget (k_pts s) a i) (vget (k_n s)) (- lz) f c /\
    c 0%nat = lxp /\ fst (plotted (applied s f)) = (- lxp)%R /\ (fst (plotted (applied s f)) < - lxn)%R.
Proof.
  intros Hl Hmu Hf Hf0 Hbig.
  destruct (build rsq K6 dbg name (foot_points lxp lxn lyp lyn lz) (rv 0 0 1) mu fmin fmax eq_refl eq_refl eq_refl)
    as (s & E & Kn & Km & Ka & Kb & Kp & Hm).
  specialize (Kp eq_refl).
  set (f := toes fmax). set (c := fun a : nat => match a with 0 => lxp | 1 => ((lyp - lyn) / 2)%R | _ => (- lz)%R end).
  assert (D : (/ 10 ^ 10 <= dot (vget (k_n s)) (vget (k_n s)))%R) by (rewrite Kn; unfold dot, rv, v3; cbn [vget]; lra).
  destruct (contact_meaning K6 dbg name s ltac:(discriminate) Hm D) as (t1 & t2 & Fr & G).
  destruct (generator_meaning K6 dbg name s Hm) as (_ & _ & Gm).
  assert (W2 : applied s f 2%nat = fmax).
  { unfold applied. rewrite (Gm f 2) by (cbn; lia). unfold wrench, is_six, resultant, at_point, f. cbn [Nat.ltb Nat.leb].
    rewrite !rsum_S, !rsum_0. cbn [Nat.mul Nat.add toes]. lra. }
  assert (W0 : applied s f 0%nat = 0%R).
  { unfold applied. rewrite (Gm f 0) by (cbn; lia). unfold wrench, is_six, resultant, at_point, f. cbn [Nat.ltb Nat.leb].
    rewrite !rsum_S, !rsum_0. cbn [Nat.mul Nat.add toes]. lra. }
  assert (Cp : centre_of_pressure 4 (fun i a => mget (k_pts s) a i) (vget (k_n s)) (- lz) f c).
  { split; [rewrite Kn; unfold dot, rv, v3, c; cbn [vget]; lra|]. intros a Ha. rewrite Kn, Kp.
    unfold rv, v3. destruct a as [|[|[|a]]]; [| | |lia]; unfold crs at 1; cbn [vget];
      unfold moment_at, crs, at_point, f, c; rewrite ?rsum_S, ?rsum_0; cbn; lra. }
  assert (Hh : forall i, i < 4 -> mget (k_pts s) 2 i = (- lz)%R) by (intros i _; rewrite Kp; reflexivity).
  destruct (plotted_meaning dbg name s (- lz)%R f c Hm Kn Hh ltac:(rewrite W2; lra) Cp) as (_ & _ & Px & _).
  assert (Px' : fst (plotted (applied s f)) = (- lxp)%R).
  { rewrite Px, W0. replace (- lz * 0 / applied s f 2%nat)%R with 0%R by (unfold Rdiv; ring). unfold c. ring. }
  exists s, f, c. split; [exact E|]. split.
  - apply (G f); [rewrite Km; exact Hmu|rewrite Km, Kb; exact Hbig|]. rewrite Km, Ka, Kb, Kn in *.
    destruct Fr as (_ & _ & _ & N1 & N2). unfold dot, rv, v3 in N1, N2. cbn [vget] in N1, N2.
    assert (Z1 : t1 2%nat = 0%R) by lra. assert (Z2 : t2 2%nat = 0%R) by lra. split.
    + intros i Hi. cbn [npts] in Hi. unfold pyramid, dot, rv, v3, at_point, f. cbn [vget]. rewrite Z1, Z2.
      destruct i as [|[|[|[|i]]]]; [| | | |lia]; cbn [Nat.mul Nat.add toes];
        match goal with |- (Rabs ?p <= ?m)%R /\ (Rabs ?q <= _)%R =>
          replace p with 0%R by ring; replace q with 0%R by ring; rewrite Rabs_R0; split; nra end.
    + unfold total_normal, dot, rv, v3, at_point, f. cbn [npts vget]. rewrite !rsum_S, !rsum_0. cbn [Nat.mul Nat.add toes]. lra.
  - split; [rewrite W2; exact Hf0|]. split; [exact Cp|]. split; [reflexivity|]. split; [exact Px'|]. rewrite Px'. lra.
Qed.
