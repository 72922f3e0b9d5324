(** writeMatrixToFile and readMatrixFromFile, include/tsid/math/utils.hpp:134-178 ("ut").
    Bytes are numbers 0..255; Index is a signed 64-bit integer, little endian; a Scalar is
    eight bytes, so that doubles are compared bit by bit.  Eigen is not at hand: [resize]
    is given both readings (a matrix that is resized; an assertion that the size is the
    same, as DenseBase::resize is documented). *)
From Coq Require Import List Arith Bool ZArith Lia.
From Verif Require Import Outcome.
Import ListNotations.
Open Scope list_scope.
Open Scope nat_scope.

Definition byte := Z.
(** Little-endian encoding on [k] bytes of the number modulo 256^k. *)
Fixpoint le_enc (k : nat) (z : Z) : list byte := match k with O => [] | S k => (z mod 256)%Z :: le_enc k (z / 256)%Z end.
Fixpoint le_dec (l : list byte) : Z := match l with [] => 0%Z | b :: l => (b + 256 * le_dec l)%Z end.
(** Signed reading of eight bytes. *)
Definition signed64 (z : Z) : Z := if (z <? 2 ^ 63)%Z then z else (z - 2 ^ 64)%Z.
Definition idx_dec (l : list byte) : Z := signed64 (le_dec l).

(** A matrix in memory: sizes and the bytes of its entries in storage order. *)
Record smat := mkSmat { m_rows : nat; m_cols : nat; m_data : list byte }.
Definition mwf (m : smat) : Prop := length (m_data m) = 8 * (m_rows m * m_cols m).
(** writeMatrixToFile: [false] when the file cannot be opened.  The file contents. *)
Definition write_matrix (can_open : bool) (m : smat) : bool * option (list byte) :=
  if can_open then (true, Some (le_enc 8 (Z.of_nat (m_rows m)) ++ le_enc 8 (Z.of_nat (m_cols m)) ++ m_data m)) else (false, None).
(** istream::read(buf, n): bytes into the front of the buffer; a short read sets failbit
    and later reads do nothing. *)
Record istream := mkIs { i_rest : list byte; i_ok : bool }.
Definition sread (s : istream) (buf : list byte) (n : nat) : list byte * istream :=
  if i_ok s then
    let got := firstn n (i_rest s) in
    (got ++ skipn (length got) buf, mkIs (skipn n (i_rest s)) (length got =? n))
  else (buf, s).
(** readMatrixFromFile: [resizes]: which reading of resize; [junk n]: contents of newly
    allocated memory.  [None]: undefined (assertion). *)
Definition read_matrix (resizes : bool) (junk : nat -> list byte) (file : option (list byte)) (m : smat) : option (bool * smat) :=
  match file with
  | None => Some (false, m)
  | Some bytes =>
      let zero := repeat 0%Z 8 in
      let '(rb, s1) := sread (mkIs bytes true) zero 8 in
      let '(cb, s2) := sread s1 zero 8 in
      let r := idx_dec rb in let c := idx_dec cb in
      do _ <- guard ((0 <=? r)%Z && (0 <=? c)%Z);
      let rn := Z.to_nat r in let cn := Z.to_nat c in
      let same := (rn =? m_rows m) && (cn =? m_cols m) in
      do _ <- guard (resizes || same);
      let buf := if rn * cn =? m_rows m * m_cols m then m_data m else junk (8 * (rn * cn)) in
      let '(d, _) := sread s2 buf (8 * (rn * cn)) in
      Some (true, mkSmat rn cn d)
  end.

(** Entries: position of (i, j) in column-major or row-major storage. *)
Definition place (row_major : bool) (m : smat) (i j : nat) : nat := if row_major then i * m_cols m + j else i + m_rows m * j.
Definition m_entry (row_major : bool) (m : smat) (i j : nat) : list byte := firstn 8 (skipn (8 * place row_major m i j) (m_data m)).

(** * Proofs *)
Lemma le_enc_length k : forall z, length (le_enc k z) = k.
Proof. induction k as [|k IH]; intros z; cbn; [reflexivity|]. rewrite IH. reflexivity. Qed.
Lemma le_dec_enc k : forall z, (0 <= z < 256 ^ Z.of_nat k)%Z -> le_dec (le_enc k z) = z.
Proof.
  induction k as [|k IH]; intros z H; [change (256 ^ Z.of_nat 0)%Z with 1%Z in H; cbn; lia|]. cbn [le_enc le_dec]. rewrite Nat2Z.inj_succ, Z.pow_succ_r in H by lia. rewrite IH.
  - rewrite (Z.div_mod z 256) at 3 by lia. lia.
  - split; [apply Z.div_pos; lia|]. apply Z.div_lt_upper_bound; lia.
Qed.
Lemma idx_roundtrip n : (Z.of_nat n < 2 ^ 63)%Z -> idx_dec (le_enc 8 (Z.of_nat n)) = Z.of_nat n.
Proof.
  intros H. unfold idx_dec. rewrite le_dec_enc.
  - unfold signed64. apply Z.ltb_lt in H. rewrite H. reflexivity.
  - change (256 ^ Z.of_nat 8)%Z with (2 ^ 64)%Z. split; [lia|]. assert (2 ^ 63 < 2 ^ 64)%Z by reflexivity. lia.
Qed.
Lemma sread_all a rest buf n : length a = n -> length buf = n -> sread (mkIs (a ++ rest) true) buf n = (a, mkIs rest true).
Proof.
  intros Ha Hb. subst n. unfold sread. cbn [i_ok i_rest]. rewrite firstn_app, firstn_all, Nat.sub_diag, firstn_O, app_nil_r, skipn_app, skipn_all, Nat.sub_diag, Nat.eqb_refl. cbn [skipn app].
  rewrite <- Hb, skipn_all, app_nil_r. reflexivity.
Qed.
Section T.
Variable junk : nat -> list byte.
Hypothesis junk_len : forall n, length (junk n) = n.
Definition index_ok (m : smat) : Prop := (Z.of_nat (m_rows m) < 2 ^ 63)%Z /\ (Z.of_nat (m_cols m) < 2 ^ 63)%Z.
Theorem file_roundtrip resizes m f b out : mwf m -> index_ok m -> mwf out -> write_matrix true m = (b, f) -> (resizes = true \/ (m_rows out = m_rows m /\ m_cols out = m_cols m)) ->
  b = true /\ read_matrix resizes junk f out = Some (true, m).
Proof.
  intros Hm [H1 H2] Ho E HR. assert (F : f = Some (le_enc 8 (Z.of_nat (m_rows m)) ++ le_enc 8 (Z.of_nat (m_cols m)) ++ m_data m)) by (unfold write_matrix in E; congruence). assert (B : b = true) by (unfold write_matrix in E; congruence). subst b f. clear E. split; [reflexivity|]. unfold read_matrix. cbv zeta.
  change (le_enc 8 (Z.of_nat (m_rows m)) ++ le_enc 8 (Z.of_nat (m_cols m)) ++ m_data m) with (le_enc 8 (Z.of_nat (m_rows m)) ++ (le_enc 8 (Z.of_nat (m_cols m)) ++ m_data m)).
  rewrite (sread_all _ _ (repeat 0%Z 8) 8 (le_enc_length 8 _) eq_refl). rewrite (sread_all _ _ (repeat 0%Z 8) 8 (le_enc_length 8 _) eq_refl). rewrite !idx_roundtrip by assumption.
  replace (0 <=? Z.of_nat (m_rows m))%Z with true by (symmetry; apply Z.leb_le; lia). replace (0 <=? Z.of_nat (m_cols m))%Z with true by (symmetry; apply Z.leb_le; lia). cbn [andb guard obind]. rewrite !Nat2Z.id.
  assert (G : guard (resizes || (m_rows m =? m_rows out) && (m_cols m =? m_cols out)) = Some tt).
  { destruct HR as [->|[-> ->]]; [reflexivity|]. rewrite !Nat.eqb_refl, orb_true_r. reflexivity. }
  rewrite G. cbn [obind]. replace (m_data m) with (m_data m ++ []) at 1 by apply app_nil_r. rewrite sread_all.
  - destruct m; reflexivity.
  - exact Hm.
  - destruct (m_rows m * m_cols m =? m_rows out * m_cols out) eqn:X; [apply Nat.eqb_eq in X; rewrite X; exact Ho|apply junk_len].
Qed.
Theorem file_closed resizes m out : write_matrix false m = (false, None) /\ read_matrix resizes junk None out = Some (false, out).
Proof. split; reflexivity. Qed.
(** Same storage order on both sides: the same entries. *)
Theorem file_entries resizes m f b out out' ro : mwf m -> index_ok m -> mwf out -> write_matrix true m = (b, f) -> (resizes = true \/ (m_rows out = m_rows m /\ m_cols out = m_cols m)) ->
  read_matrix resizes junk f out = Some (true, out') -> m_rows out' = m_rows m /\ m_cols out' = m_cols m /\ forall i j, m_entry ro out' i j = m_entry ro m i j.
Proof.
  intros H1 H2 H3 H4 H5 E. destruct (file_roundtrip resizes m f b out H1 H2 H3 H4 H5) as [_ X]. rewrite X in E. injection E as <-. auto.
Qed.
(** The storage order is not in the file: row-major written, column-major read. *)
Definition square (a b c d : byte) : smat := mkSmat 2 2 (flat_map (fun x => le_enc 8 x) [a; b; c; d]).
Theorem file_order_refuted : exists m f out', mwf m /\ index_ok m /\ write_matrix true m = (true, f) /\ read_matrix true junk f m = Some (true, out') /\
  m_entry true m 0 1 <> m_entry false out' 0 1.
Proof.
  exists (square 1 2 3 4)%Z. assert (W : mwf (square 1 2 3 4)%Z) by reflexivity. assert (I : index_ok (square 1 2 3 4)%Z) by (split; reflexivity).
  destruct (write_matrix true (square 1 2 3 4)%Z) as [b f] eqn:E. destruct (file_roundtrip true (square 1 2 3 4)%Z f b (square 1 2 3 4)%Z W I W E (or_introl eq_refl)) as [-> X].
  exists f, (square 1 2 3 4)%Z. split; [exact W|]. split; [exact I|]. split; [reflexivity|]. split; [exact X|]. cbn. intros C. discriminate C.
Qed.
(** Damaged files are accepted: whatever follows the bytes present is junk. *)
Theorem file_truncated m out k : mwf m -> index_ok m -> m_rows m * m_cols m <> m_rows out * m_cols out -> k <= 8 * (m_rows m * m_cols m) ->
  exists d, read_matrix true junk (Some (le_enc 8 (Z.of_nat (m_rows m)) ++ le_enc 8 (Z.of_nat (m_cols m)) ++ firstn k (m_data m))) out = Some (true, mkSmat (m_rows m) (m_cols m) d) /\
    d = firstn k (m_data m) ++ skipn k (junk (8 * (m_rows m * m_cols m))).
Proof.
  intros Hm [H1 H2] Hne Hk. unfold read_matrix. cbv zeta.
  change (le_enc 8 (Z.of_nat (m_rows m)) ++ le_enc 8 (Z.of_nat (m_cols m)) ++ firstn k (m_data m)) with (le_enc 8 (Z.of_nat (m_rows m)) ++ (le_enc 8 (Z.of_nat (m_cols m)) ++ firstn k (m_data m))).
  rewrite (sread_all _ _ (repeat 0%Z 8) 8 (le_enc_length 8 _) eq_refl). rewrite (sread_all _ _ (repeat 0%Z 8) 8 (le_enc_length 8 _) eq_refl). rewrite !idx_roundtrip by assumption.
  replace (0 <=? Z.of_nat (m_rows m))%Z with true by (symmetry; apply Z.leb_le; lia). replace (0 <=? Z.of_nat (m_cols m))%Z with true by (symmetry; apply Z.leb_le; lia). cbn [andb guard obind orb]. rewrite !Nat2Z.id.
  replace (m_rows m * m_cols m =? m_rows out * m_cols out) with false by (symmetry; apply Nat.eqb_neq; exact Hne).
  unfold sread. cbn [i_ok i_rest]. eexists. split; [reflexivity|]. unfold mwf in Hm. rewrite firstn_firstn, Nat.min_r by lia. rewrite firstn_length, Hm, Nat.min_l by lia. reflexivity.
Qed.
Theorem file_empty out : mwf out -> m_rows out * m_cols out <> 0 -> read_matrix true junk (Some []) out = Some (true, mkSmat 0 0 (junk 0)).
Proof.
  intros Ho Hne. unfold read_matrix, sread. cbn [i_ok i_rest firstn length skipn app]. change (8 =? 0) with false. destruct (0 =? 8) eqn:X; [discriminate X|]. cbn [i_ok].
  change (idx_dec (repeat 0%Z 8)) with 0%Z. cbn [Z.leb Z.compare andb guard obind orb Z.to_nat Nat.mul]. destruct (0 =? m_rows out * m_cols out) eqn:Y; [apply Nat.eqb_eq in Y; congruence|]. reflexivity.
Qed.
End T.
