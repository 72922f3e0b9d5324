(** Scalars used by the model.

    tsid computes with IEEE [double]s (include/tsid/math/fwd.hpp:21, typedef
    double Scalar).  The model is parametrised by a record [num] of operations so
    that structural theorems hold for every arithmetic (in particular for rounded
    doubles), while numeric theorems are stated for the reals [Rnum] and concrete
    witnesses are computed with the rationals [Qnum]. *)
From Coq Require Import QArith Qround Reals Qreals Bool List.
Import ListNotations.

Record num := mkNum {
  car :> Type;
  n0 : car;
  n1 : car;
  nadd : car -> car -> car;
  nsub : car -> car -> car;
  nmul : car -> car -> car;
  ndiv : car -> car -> car;
  nopp : car -> car;
  nleb : car -> car -> bool;
  nltb : car -> car -> bool;
  neqb : car -> car -> bool;
  nofQ : Q -> car }.

Arguments n0 {_}.
Arguments n1 {_}.
Arguments nadd {_} _ _.
Arguments nsub {_} _ _.
Arguments nmul {_} _ _.
Arguments ndiv {_} _ _.
Arguments nopp {_} _.
Arguments nleb {_} _ _.
Arguments nltb {_} _ _.
Arguments neqb {_} _ _.
Arguments nofQ {_} _.

Declare Scope num_scope.
Delimit Scope num_scope with num.
Infix "+" := nadd : num_scope.
Infix "-" := nsub : num_scope.
Infix "*" := nmul : num_scope.
Infix "/" := ndiv : num_scope.
Notation "- x" := (nopp x) : num_scope.
Infix "<=?" := nleb : num_scope.
Infix "<?" := nltb : num_scope.
Infix "=?" := neqb : num_scope.

(** Rationals, used for computed witnesses; results are kept reduced so that
    [vm_compute] yields canonical values. *)
Definition Qnum : num := {|
  car := Q; n0 := 0%Q; n1 := 1%Q;
  nadd := fun x y => Qred (x + y);
  nsub := fun x y => Qred (x - y);
  nmul := fun x y => Qred (x * y);
  ndiv := fun x y => Qred (x / y);
  nopp := fun x => Qred (- x);
  nleb := Qle_bool;
  nltb := fun x y => negb (Qle_bool y x);
  neqb := Qeq_bool;
  nofQ := fun q => Qred q |}.

(** Reals. *)
Definition Rleb (x y : R) : bool := if Rle_dec x y then true else false.
Definition Rltb (x y : R) : bool := if Rlt_dec x y then true else false.
Definition Reqb (x y : R) : bool := if Req_EM_T x y then true else false.

Definition Rnum : num := {|
  car := R; n0 := 0%R; n1 := 1%R;
  nadd := Rplus; nsub := Rminus; nmul := Rmult; ndiv := Rdiv; nopp := Ropp;
  nleb := Rleb; nltb := Rltb; neqb := Reqb; nofQ := Q2R |}.

Definition nmax {K : num} (x y : K) : K := if (x <? y)%num then y else x.
Definition nmin {K : num} (x y : K) : K := if (y <? x)%num then y else x.

Lemma Rleb_true x y : Rleb x y = true <-> (x <= y)%R.
Proof. unfold Rleb; destruct (Rle_dec x y); split; intros; auto; discriminate. Qed.
Lemma Rleb_false x y : Rleb x y = false <-> (y < x)%R.
Proof.
  unfold Rleb; destruct (Rle_dec x y) as [h|h]; split; intros H; auto; try discriminate.
  - exfalso; exact (Rlt_not_le _ _ H h).
  - apply Rnot_le_lt; exact h.
Qed.
Lemma Rltb_true x y : Rltb x y = true <-> (x < y)%R.
Proof. unfold Rltb; destruct (Rlt_dec x y); split; intros; auto; discriminate. Qed.
Lemma Rltb_false x y : Rltb x y = false <-> (y <= x)%R.
Proof.
  unfold Rltb; destruct (Rlt_dec x y) as [h|h]; split; intros H; auto; try discriminate.
  - exfalso; exact (Rle_not_lt _ _ H h).
  - apply Rnot_lt_le; exact h.
Qed.
Lemma Reqb_true x y : Reqb x y = true <-> x = y.
Proof. unfold Reqb; destruct (Req_EM_T x y); split; intros; auto; discriminate. Qed.
Lemma Reqb_false x y : Reqb x y = false <-> x <> y.
Proof. unfold Reqb; destruct (Req_EM_T x y); split; intros; auto; try discriminate; contradiction. Qed.
