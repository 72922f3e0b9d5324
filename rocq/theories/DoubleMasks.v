(** 0/1 masks are counted exactly in doubles, whatever the order of the additions. *)
From Coq Require Import List Arith Bool ZArith Reals Lia Lra Permutation.
From Flocq Require Import Core BinarySingleNaN.
From Verif Require Import Scalar FloatUtils Doubles Outcome Linalg Masks.
Import ListNotations.
Open Scope nat_scope.

(** Truncation of a double to an integer (static_cast<int>, static_cast<Index>). *)
Definition Dtrunc (x : Dnum) : Z := @Btrunc 53 1024 x.
Lemma Dtrunc_int (x : Dnum) z : val x = IZR z -> Dtrunc x = z.
Proof.
  intros H. unfold Dtrunc. apply eq_IZR. rewrite (@Btrunc_correct 53 1024 eq_refl x). fold (val x). rewrite H.
  apply round_generic; [apply valid_rnd_ZR|]. replace (IZR z) with (F2R (Float radix2 z 0)) by (unfold F2R; cbn; ring).
  apply generic_format_F2R. intros _. unfold cexp, FIX_exp. cbn. lia.
Qed.
(** A sum written with any parentheses. *)
Inductive stree := SLeaf (x : Dnum) | SNode (a b : stree).
Fixpoint seval (t : stree) : Dnum := match t with SLeaf x => x | SNode a b => (seval a + seval b)%num end.
Fixpoint sleaves (t : stree) : list Dnum := match t with SLeaf x => [x] | SNode a b => sleaves a ++ sleaves b end.
(** 0 or 1; [bits] counts the ones. *)
Definition bit (x : Dnum) : Prop := (x =? n0)%num = true \/ (x =? n1)%num = true.
Definition bits (l : list Dnum) : nat := length (filter (fun x => negb (x =? n0)%num) l).
Lemma val_n1 : val (@n1 Dnum) = 1%R.
Proof. apply Bone_correct. Qed.
Lemma fin_n1 : fin (@n1 Dnum).
Proof. apply is_finite_Bone. Qed.
Lemma eq_fin (x y : Dnum) : fin y -> (x =? y)%num = true -> fin x /\ val x = val y.
Proof.
  intros Fy E. assert (Fx : fin x).
  { unfold fin. destruct x as [s|s| |s m e p]; try reflexivity; cbn [neqb Dnum] in E; destruct y as [[|]|[|]| |[|] ? ? ?]; try discriminate Fy; try discriminate E; destruct s; discriminate E. }
  split; [exact Fx|]. rewrite (d_eq x y Fx Fy) in E. unfold Reqb in E. destruct (Req_EM_T (val x) (val y)); [assumption|discriminate].
Qed.
Lemma bit_val x : bit x -> fin x /\ val x = IZR (Z.of_nat (bits [x])).
Proof.
  intros [H|H].
  - destruct (eq_fin x n0 eq_refl H) as (F & V). split; [exact F|]. unfold bits. cbn [filter]. rewrite H. exact V.
  - destruct (eq_fin x n1 fin_n1 H) as (F & V). split; [exact F|]. unfold bits. cbn [filter].
    assert (E : (x =? n0)%num = false).
    { rewrite (d_eq x n0 F eq_refl). rewrite V, val_n1. change (val n0) with 0%R. unfold Reqb. destruct (Req_EM_T 1 0); [lra|reflexivity]. }
    rewrite E. cbn. rewrite V, val_n1. reflexivity.
Qed.
Lemma bits_app l1 l2 : bits (l1 ++ l2) = bits l1 + bits l2.
Proof. unfold bits. rewrite filter_app, app_length. reflexivity. Qed.
Lemma int_exact z : (Z.abs z <= 2 ^ 53)%Z -> rd (IZR z) = IZR z.
Proof.
  intros H. apply round_generic; [apply valid_rnd_N|]. destruct (Z.eq_dec (Z.abs z) (2 ^ 53)) as [E|E].
  - assert (IZR z = bpow radix2 53 \/ IZR z = (- bpow radix2 53)%R) as [-> | ->].
    { change (bpow radix2 53) with (IZR (2 ^ 53)). rewrite <- opp_IZR. destruct (Z.abs_eq_or_opp z) as [X|X]; [left|right]; f_equal; lia. }
    + apply generic_format_FLT_bpow; [reflexivity|lia].
    + apply generic_format_opp, generic_format_FLT_bpow; [reflexivity|lia].
  - replace (IZR z) with (F2R (Float radix2 z 0)) by (unfold F2R; cbn; ring). apply generic_format_FLT.
    exists (Float radix2 z 0); cbn [Fnum Fexp]; [reflexivity| |lia]. change (Zpower radix2 53) with (2 ^ 53)%Z. lia.
Qed.
Lemma add_int (x y : Dnum) a b : fin x -> fin y -> val x = IZR a -> val y = IZR b -> (0 <= a)%Z -> (0 <= b)%Z -> (a + b <= 2 ^ 53)%Z ->
  fin (x + y)%num /\ val (x + y)%num = IZR (a + b).
Proof.
  intros Fx Fy Vx Vy Ha Hb Hs. destruct (d_add x y Fx Fy) as (F & V & _).
  - rewrite Vx, Vy, <- plus_IZR, <- abs_IZR. apply Rle_trans with (IZR (2 ^ 53)); [apply IZR_le; lia|]. change (IZR (2 ^ 53)) with (bpow radix2 53). apply bpow_le. lia.
  - split; [exact F|]. rewrite V, Vx, Vy, <- plus_IZR. apply int_exact. lia.
Qed.
Theorem sum_bits t : Forall bit (sleaves t) -> (Z.of_nat (bits (sleaves t)) <= 2 ^ 53)%Z -> fin (seval t) /\ val (seval t) = IZR (Z.of_nat (bits (sleaves t))).
Proof.
  induction t as [x|a IHa b IHb]; cbn [sleaves seval]; intros H Hn.
  - apply bit_val. inversion H. assumption.
  - apply Forall_app in H as (H1 & H2). rewrite bits_app in *. rewrite Nat2Z.inj_add in *. destruct IHa as (F1 & V1); [exact H1|lia|]. destruct IHb as (F2 & V2); [exact H2|lia|].
    apply add_int; try assumption; lia.
Qed.
Definition entries (m : vec Dnum) : list Dnum := map (vget m) (seq 0 (vlen m)).
Lemma bits_perm l l' : Permutation l l' -> bits l = bits l'.
Proof.
  intros H. unfold bits. induction H as [|x a b _ IH|x y a|a b c _ IH1 _ IH2]; cbn [filter]; [reflexivity| | |congruence].
  - destruct (negb (x =? n0)%num); cbn [length]; congruence.
  - destruct (negb (x =? n0)%num), (negb (y =? n0)%num); reflexivity.
Qed.
Lemma bits_map m l : bits (map (vget m) l) = length (filter (is_on m) l).
Proof. unfold bits, is_on. induction l as [|i l IH]; [reflexivity|]. cbn [map filter]. destruct (negb (vget m i =? n0)%num); cbn [length]; congruence. Qed.
Lemma bits_entries m : bits (entries m) = length (actives m).
Proof. apply bits_map. Qed.
Lemma actives_len (m : vec Dnum) : length (actives m) <= vlen m.
Proof. unfold actives. rewrite <- (seq_length (vlen m) 0) at 2. apply filter_len. Qed.
(** Any order of the additions. *)
Theorem counted_any (m : vec Dnum) t : mask01 m -> (Z.of_nat (vlen m) <= 2 ^ 53)%Z -> Permutation (sleaves t) (entries m) ->
  Dtrunc (seval t) = Z.of_nat (length (actives m)).
Proof.
  intros H01 Hn P. rewrite <- bits_entries, <- (bits_perm _ _ P). apply Dtrunc_int, sum_bits.
  - apply (Permutation_Forall (Permutation_sym P)). apply Forall_forall. intros x Hx. apply in_map_iff in Hx as (i & <- & Hi). apply in_seq in Hi. apply H01. lia.
  - rewrite (bits_perm _ _ P), bits_entries. assert (L := actives_len m). lia.
Qed.
(** The order of the model. *)
Lemma counted_D (m : vec Dnum) : mask01 m -> (Z.of_nat (vlen m) <= 2 ^ 53)%Z -> counted Dtrunc m.
Proof.
  intros H01 Hn. unfold counted. apply Dtrunc_int. assert (L := actives_len m).
  assert (H : forall k, k <= vlen m -> fin (nsum k (vget m)) /\ val (nsum k (vget m)) = IZR (Z.of_nat (bits (map (vget m) (seq 0 k))))).
  { induction k as [|k IH]; intros Hk; [split; reflexivity|]. destruct IH as (F & V); [lia|]. assert (ES : seq 0 (S k) = seq 0 k ++ [k]) by (replace (S k) with (k + 1) by lia; rewrite seq_app; reflexivity).
    rewrite ES, map_app, bits_app. cbn [nsum map]. rewrite Nat2Z.inj_add.
    destruct (bit_val (vget m k) (H01 k ltac:(lia))) as (F2 & V2). apply add_int; try assumption; try lia.
    assert (B : bits (map (vget m) (seq 0 k)) <= k) by (rewrite bits_map; rewrite <- (seq_length k 0) at 2; apply filter_len).
    assert (C : bits [vget m k] <= 1) by (unfold bits; cbn [filter]; destruct (negb _); cbn; lia). lia. }
  destruct (H (vlen m) (le_n _)) as (_ & V). rewrite V. rewrite <- bits_entries. reflexivity.
Qed.
Theorem set_mask_D jk cols off val (m : vec Dnum) : mask01 m -> (Z.of_nat (vlen m) <= 2 ^ 53)%Z -> off + vlen m <= cols ->
  exists S ax, set_mask Dtrunc jk cols off val m = MOk (length (actives m)) S ax /\
    selects off val (actives m) S /\ mcols S = cols /\ forall j i, nth_error (actives m) j = Some i -> ax j = i.
Proof. intros H1 H2 H3. exact (set_mask_ok Dtrunc jk cols off val m H1 (counted_D m H1 H2) H3). Qed.
