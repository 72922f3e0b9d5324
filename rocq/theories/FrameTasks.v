(** Tasks on frames, centre of mass and angular momentum:
    src/tasks/task-se3-equality.cpp ("se"), src/tasks/task-two-frames-equality.cpp
    ("tf"), src/tasks/task-com-equality.cpp ("co"),
    src/tasks/task-angular-momentum-equality.cpp ("am").
    Quantities computed by pinocchio (placements, velocities, Jacobians, drifts) are
    arguments of compute.  3-vectors, 6-vectors (Motion: linear part first) and
    3x3 matrices of fixed size are functions. *)
From Coq Require Import String List Arith Bool ZArith QArith Lia.
From Verif Require Import Scalar Outcome Linalg Constraint Masks.
Import ListNotations.
Open Scope string_scope.
Open Scope list_scope.
Open Scope nat_scope.

Section FT.
Context {K : num}.
(** (int)m_mask.sum(). *)
Variable toZ : K -> Z.
(** pinocchio::log3 of a rotation matrix. *)
Variable log3 : (nat -> nat -> K) -> nat -> K.

Definition vec3 := nat -> K.
Definition vec6 := nat -> K.
Definition mat3 := nat -> nat -> K.
(** SE3::act and actInv on a Motion for a placement without translation (m_wMl is the
    identity with its rotation replaced); the products with the zero translation are
    left out. *)
Definition act (R : mat3) (x : vec6) : vec6 :=
  fun i => if i <? 3 then nsum 3 (fun k => R i k * x k)%num else nsum 3 (fun k => R (i - 3)%nat k * x (3 + k)%nat)%num.
Definition act_inv (R : mat3) (x : vec6) : vec6 :=
  fun i => if i <? 3 then nsum 3 (fun k => R k i * x k)%num else nsum 3 (fun k => R k (i - 3)%nat * x (3 + k)%nat)%num.
(** toActionMatrix() * J for the same placement. *)
Definition act_mat (R : mat3) (J : nat -> nat -> K) : nat -> nat -> K := fun i c => act R (fun r => J r c) i.
(** errorInSE3 (src/math/utils.cpp:34-41): M.inverse() * Mdes, translation and log3 of
    the rotation. *)
Definition se3_error (R : mat3) (p : vec3) (Rd : mat3) (pd : vec3) : vec6 :=
  fun i => if i <? 3 then (nsum 3 (fun k => R k i * pd k) + - nsum 3 (fun k => R k i * p k))%num
           else log3 (fun a b => nsum 3 (fun k => R k a * Rd k b)%num) (i - 3).
(** SE3ToVector and vectorToSE3 (src/math/utils.cpp:18-32): translation, then the
    rotation column by column. *)
Definition se3_to_vec (R : mat3) (p : vec3) : vec K :=
  mkVec 12 (fun i => if i <? 3 then p i else R ((i - 3) mod 3) ((i - 3) / 3)).
Definition vec_to_se3 (v : vec K) : mat3 * vec3 :=
  ((fun a b => vget v (3 + (3 * b + a))), (fun i => vget v i)).

(** * The masked rows (se:190-202, tf:152-164, co:114-127) *)
Record rows := mkRows { k_idx : nat; k_A : mat K; k_b : vec K; k_ad : vec K; k_dr : vec K; k_pe : vec K; k_ve : vec K }.
Definition vput (v : vec K) (i : nat) (x : K) : vec K := mkVec (vlen v) (fun r => if r =? i then x else vget v r).
Definition mput (A : mat K) (i : nat) (row : nat -> K) : mat K := mkMat (mrows A) (mcols A) (fun r c => if r =? i then row c else mget A r c).
Definition row_step (m : vec K) (nv : nat) (J : nat -> nat -> K) (ad dr pe ve : nat -> K) (st : rows) (i : nat) : option rows :=
  if i <? vlen m then
    if (vget m i =? n1)%num then
      let x := k_idx st in
      if (x <? mrows (k_A st)) && (mcols (k_A st) =? nv) && (x <? vlen (k_b st)) && (x <? vlen (k_ad st)) && (x <? vlen (k_dr st)) && (x <? vlen (k_pe st)) && (x <? vlen (k_ve st)) then
        Some (mkRows (S x) (mput (k_A st) x (J i)) (vput (k_b st) x (ad i - dr i)%num) (vput (k_ad st) x (ad i)) (vput (k_dr st) x (dr i))
                (vput (k_pe st) x (pe i)) (vput (k_ve st) x (ve i)))
      else None
    else Some st
  else None.
(** Constraint and masked vectors of the task. *)
Record mtask := mkMt { h_c : constr K; h_ad : vec K; h_dr : vec K; h_pe : vec K; h_ve : vec K }.
Definition mt_rows (n : nat) (m : vec K) (nv : nat) (J : nat -> nat -> K) (ad dr pe ve : nat -> K) (h : mtask) : option mtask :=
  do st <- ofold (row_step m nv J ad dr pe ve) (seq 0 n) (mkRows 0 (c_mat (h_c h)) (c_vec (h_c h)) (h_ad h) (h_dr h) (h_pe h) (h_ve h));
  do c <- cset_vec (cset_mat (h_c h) (k_A st)) (k_b st);
  Some (mkMt c (k_ad st) (k_dr st) (k_pe st) (k_ve st)).
(** setMask after the assignment of the mask (se:50-58, tf:54-60, co:33-38): the vectors
    are resized without initialisation ([jk]: their contents). *)
Definition mt_mask (jk : vec K) (m : vec K) (nv : nat) (h : mtask) : option mtask :=
  let d := toZ (nsum (vlen m) (vget m)) in
  if (d <? 0)%Z then None
  else let n := Z.to_nat d in
    do c <- cresize (h_c h) n nv;
    let w := mkVec n (vget jk) in
    Some (mkMt c w w w w).
(** getAcceleration: [sgn] is true for "+ drift" (se:123, tf:92), false for
    "- drift" (co:68). *)
Definition mt_acc (sgn : bool) (h : mtask) (dv : vec K) : option (vec K) :=
  do a <- mvec (c_mat (h_c h)) dv;
  if sgn then vadd a (h_dr h) else vsub a (h_dr h).

(** * TaskSE3Equality *)
Record fdata := mkFd { d_R : mat3; d_p : vec3; d_v : vec6; d_a : vec6; d_J : nat -> nat -> K }.
Record se3t := mkSe3t { x_nv : nat; x_kp : vec K; x_kd : vec K;
  x_pd : vec3; x_Rd : mat3; x_vd : vec6; x_ad : vec6;   (* m_M_ref, m_v_ref, m_a_ref *)
  x_val : vec K; x_der : vec K; x_sec : vec K;            (* m_ref *)
  x_local : bool; x_mask : vec K;
  x_p : vec K; x_v : vec K; x_pr : vec K; x_vr : vec K;   (* position(), velocity(), position_ref(), velocity_ref() *)
  x_h : mtask }.
(** Constructor se:15-48 (the frame exists). *)
Definition se3_new (jk : vec K) (name : string) (nv : nat) : option se3t :=
  let m := mkVec 6 (fun _ => n1) in
  do h <- mt_mask jk m nv (mkMt (new_eq name 6 nv) (vzero 0) (vzero 0) (vzero 0) (vzero 0));
  Some (mkSe3t nv (vzero 6) (vzero 6) (fun _ => n0) (fun a b => if a =? b then n1 else n0) (fun _ => n0) (fun _ => n0)
          (vzero 12) (vzero 6) (vzero 6) true m (mkVec 12 (vget jk)) (mkVec 6 (vget jk)) (mkVec 12 (vget jk)) (mkVec 6 (vget jk)) h).
Inductive se3op :=
| XKp (k : vec K) | XKd (k : vec K) | XRef (val der sec : vec K) | XRefSE3 (R : mat3) (p : vec3)
| XMask (jk m : vec K) | XLocal (b : bool) | XCompute (d : fdata).
(** Quantities of compute, se:136-193: Jacobian, drift, errors and desired acceleration
    in the frame chosen with useLocalFrame. *)
Definition se3_J (s : se3t) (d : fdata) : nat -> nat -> K := if x_local s then d_J d else act_mat (d_R d) (d_J d).
Definition se3_drift (s : se3t) (d : fdata) : vec6 := if x_local s then d_a d else act (d_R d) (d_a d).
Definition se3_pe (s : se3t) (d : fdata) : vec6 :=
  let e := se3_error (d_R d) (d_p d) (x_Rd s) (x_pd s) in if x_local s then e else act (d_R d) e.
Definition se3_ve (s : se3t) (d : fdata) : vec6 :=
  fun i => if x_local s then (act_inv (d_R d) (x_vd s) i - d_v d i)%num else (x_vd s i - act (d_R d) (d_v d) i)%num.
Definition se3_ades (s : se3t) (d : fdata) : vec6 :=
  fun i => (vget (x_kp s) i * se3_pe s d i + vget (x_kd s) i * se3_ve s d i + (if x_local s then act_inv (d_R d) (x_ad s) i else x_ad s i))%num.
Definition se3_compute (s : se3t) (d : fdata) : option se3t :=
  do _ <- guard ((vlen (x_kp s) =? 6) && (vlen (x_kd s) =? 6));
  do h <- mt_rows 6 (x_mask s) (x_nv s) (se3_J s d) (se3_ades s d) (se3_drift s d) (se3_pe s d) (se3_ve s d) (x_h s);
  Some (mkSe3t (x_nv s) (x_kp s) (x_kd s) (x_pd s) (x_Rd s) (x_vd s) (x_ad s) (x_val s) (x_der s) (x_sec s) (x_local s) (x_mask s)
    (se3_to_vec (d_R d) (d_p d)) (mkVec 6 (d_v d)) (se3_to_vec (x_Rd s) (x_pd s)) (mkVec 6 (x_vd s)) h).
(** setReference se:78-89: m_ref is assigned before the check of the size; the sizes of
    the derivatives are only asserted. *)
Definition se3_ref (s : se3t) (val der sec : vec K) : outcome se3t unit :=
  let put pd Rd vd ad := mkSe3t (x_nv s) (x_kp s) (x_kd s) pd Rd vd ad val der sec (x_local s) (x_mask s)
      (x_p s) (x_v s) (x_pr s) (x_vr s) (x_h s) in
  if vlen val =? 12 then
    if (vlen der =? 6) && (vlen sec =? 6) then
      Ret (put (snd (vec_to_se3 val)) (fst (vec_to_se3 val)) (vget der) (vget sec)) tt
    else Undef
  else Exc (put (x_pd s) (x_Rd s) (x_vd s) (x_ad s)).
Definition se3_step (s : se3t) (o : se3op) : outcome se3t unit :=
  let put kp kd loc m h := mkSe3t (x_nv s) kp kd (x_pd s) (x_Rd s) (x_vd s) (x_ad s) (x_val s) (x_der s) (x_sec s) loc m
      (x_p s) (x_v s) (x_pr s) (x_vr s) h in
  match o with
  | XKp k => if vlen k =? 6 then Ret (put k (x_kd s) (x_local s) (x_mask s) (x_h s)) tt else Exc s
  | XKd k => if vlen k =? 6 then Ret (put (x_kp s) k (x_local s) (x_mask s) (x_h s)) tt else Exc s
  | XRef val der sec => se3_ref s val der sec
  | XRefSE3 R p => se3_ref s (se3_to_vec R p) (vzero 6) (vzero 6)     (* se:91-98 *)
  | XMask jk m => match mt_mask jk m (x_nv s) (x_h s) with            (* se:50-58, no check *)
                  | Some h => Ret (put (x_kp s) (x_kd s) (x_local s) m h) tt
                  | None => Undef
                  end
  | XLocal b => Ret (put (x_kp s) (x_kd s) b (x_mask s) (x_h s)) tt
  | XCompute d => match se3_compute s d with Some s' => Ret s' tt | None => Undef end
  end.

(** * TaskTwoFramesEquality *)
Record tft := mkTft { y_nv : nat; y_kp : vec K; y_kd : vec K; y_mask : vec K; y_h : mtask }.
(** Constructor tf:17-51. *)
Definition tf_new (jk : vec K) (name : string) (nv : nat) : option tft :=
  let m := mkVec 6 (fun _ => n1) in
  do h <- mt_mask jk m nv (mkMt (new_eq name 6 nv) (vzero 0) (vzero 0) (vzero 0) (vzero 0));
  Some (mkTft nv (vzero 6) (vzero 6) m h).
Inductive tfop := YKp (k : vec K) | YKd (k : vec K) | YMask (jk m : vec K) | YCompute (d1 d2 : fdata).
(** tf:103-155. *)
Definition tf_J (d1 d2 : fdata) : nat -> nat -> K := fun i c => (act_mat (d_R d1) (d_J d1) i c - act_mat (d_R d2) (d_J d2) i c)%num.
Definition tf_drift (d1 d2 : fdata) : vec6 := fun i => (act (d_R d1) (d_a d1) i - act (d_R d2) (d_a d2) i)%num.
Definition tf_pe (d1 d2 : fdata) : vec6 := act (d_R d1) (se3_error (d_R d1) (d_p d1) (d_R d2) (d_p d2)).
Definition tf_ve (d1 d2 : fdata) : vec6 := fun i => (act (d_R d2) (d_v d2) i - act (d_R d1) (d_v d1) i)%num.
Definition tf_ades (s : tft) (d1 d2 : fdata) : vec6 := fun i => (vget (y_kp s) i * tf_pe d1 d2 i + vget (y_kd s) i * tf_ve d1 d2 i)%num.
(** Setters tf:69-77: the sizes are only asserted. *)
Definition tf_step (s : tft) (o : tfop) : outcome tft unit :=
  match o with
  | YKp k => if vlen k =? 6 then Ret (mkTft (y_nv s) k (y_kd s) (y_mask s) (y_h s)) tt else Undef
  | YKd k => if vlen k =? 6 then Ret (mkTft (y_nv s) (y_kp s) k (y_mask s) (y_h s)) tt else Undef
  | YMask jk m => match mt_mask jk m (y_nv s) (y_h s) with
                  | Some h => Ret (mkTft (y_nv s) (y_kp s) (y_kd s) m h) tt
                  | None => Undef
                  end
  | YCompute d1 d2 =>
      match (do _ <- guard ((vlen (y_kp s) =? 6) && (vlen (y_kd s) =? 6));
             mt_rows 6 (y_mask s) (y_nv s) (tf_J d1 d2) (tf_ades s d1 d2) (tf_drift d1 d2) (tf_pe d1 d2) (tf_ve d1 d2) (y_h s)) with
      | Some h => Ret (mkTft (y_nv s) (y_kp s) (y_kd s) (y_mask s) h) tt
      | None => Undef
      end
  end.

(** * TaskComEquality *)
Record cdata := mkCd { g_p : vec3; g_v : vec3; g_a : vec3; g_J : nat -> nat -> K }.
Record comt := mkComt { z_nv : nat; z_kp : vec3; z_kd : vec3; z_val : vec K; z_der : vec K; z_sec : vec K; z_mask : vec K; z_h : mtask }.
(** Constructor co:14-27. *)
Definition com_new (jk : vec K) (name : string) (nv : nat) : option comt :=
  let m := mkVec 3 (fun _ => n1) in
  do h <- mt_mask jk m nv (mkMt (new_eq name 3 nv) (vzero 0) (vzero 0) (vzero 0) (vzero 0));
  Some (mkComt nv (fun _ => n0) (fun _ => n0) (vzero 3) (vzero 3) (vzero 3) m h).
Inductive comop := ZKp (k : vec K) | ZKd (k : vec K) | ZRef (val der sec : vec K) | ZMask (jk m : vec K) | ZCompute (d : cdata).
(** co:93-102. *)
Definition com_pe (s : comt) (d : cdata) : vec3 := fun i => (g_p d i - vget (z_val s) i)%num.
Definition com_ve (s : comt) (d : cdata) : vec3 := fun i => (g_v d i - vget (z_der s) i)%num.
Definition com_ades (s : comt) (d : cdata) : vec3 :=
  fun i => (- (z_kp s i * com_pe s d i) - z_kd s i * com_ve s d i + vget (z_sec s) i)%num.
(** co:29-59 (the reference is not checked) and co:93-132. *)
Definition com_step (s : comt) (o : comop) : outcome comt unit :=
  match o with
  | ZKp k => if vlen k =? 3 then Ret (mkComt (z_nv s) (vget k) (z_kd s) (z_val s) (z_der s) (z_sec s) (z_mask s) (z_h s)) tt else Exc s
  | ZKd k => if vlen k =? 3 then Ret (mkComt (z_nv s) (z_kp s) (vget k) (z_val s) (z_der s) (z_sec s) (z_mask s) (z_h s)) tt else Exc s
  | ZRef a b c => Ret (mkComt (z_nv s) (z_kp s) (z_kd s) a b c (z_mask s) (z_h s)) tt
  | ZMask jk m => if vlen m =? 3 then
                    match mt_mask jk m (z_nv s) (z_h s) with
                    | Some h => Ret (mkComt (z_nv s) (z_kp s) (z_kd s) (z_val s) (z_der s) (z_sec s) m h) tt
                    | None => Undef
                    end
                  else Exc s
  | ZCompute d =>
      match (do _ <- guard ((vlen (z_val s) =? 3) && (vlen (z_der s) =? 3) && (vlen (z_sec s) =? 3));
             mt_rows 3 (z_mask s) (z_nv s) (g_J d) (com_ades s d) (g_a d) (com_pe s d) (com_ve s d) (z_h s)) with
      | Some h => Ret (mkComt (z_nv s) (z_kp s) (z_kd s) (z_val s) (z_der s) (z_sec s) (z_mask s) h) tt
      | None => Undef
      end
  end.

(** * TaskAMEquality *)
(** Rows 3..5 of the centroidal momentum matrix and the time variation of the angular
    momentum at zero acceleration. *)
Record adata := mkAd { am_J : nat -> nat -> K; am_d : vec3 }.
Record amt := mkAmt { o_nv : nat; o_kp : vec3; o_kd : vec3; o_val : vec K; o_der : vec K; o_sec : vec K;
  o_L : vec3; o_err : vec3; o_des : vec3; o_dr : vec3; o_c : constr K }.
(** Constructor am:16-26. *)
Definition am_new (name : string) (nv : nat) : amt :=
  mkAmt nv (fun _ => n0) (fun _ => n0) (vzero 3) (vzero 3) (vzero 3) (fun _ => n0) (fun _ => n0) (fun _ => n0) (fun _ => n0) (new_eq name 3 nv).
Inductive amop := OKp (k : vec K) | OKd (k : vec K) | ORef (val der sec : vec K) | OCompute (v : vec K) (d : adata).
(** compute am:74-96; setMatrix throws if the sizes differ, which the sizes of the
    constraint exclude. *)
Definition am_compute (s : amt) (v : vec K) (d : adata) : option amt :=
  do _ <- guard ((vlen v =? o_nv s) && (vlen (o_val s) =? 3) && (vlen (o_der s) =? 3));
  do _ <- guard ((mrows (c_mat (o_c s)) =? 3) && (mcols (c_mat (o_c s)) =? o_nv s));
  let L := fun i => nsum (o_nv s) (fun c => am_J d i c * vget v c)%num in
  let e := fun i => (L i - vget (o_val s) i)%num in
  let des := fun i => (- (o_kp s i * e i) + vget (o_der s) i)%num in
  do c <- cset_vec (cset_mat (o_c s) (mkMat 3 (o_nv s) (am_J d))) (mkVec 3 (fun i => des i - am_d d i)%num);
  Some (mkAmt (o_nv s) (o_kp s) (o_kd s) (o_val s) (o_der s) (o_sec s) L e des (am_d d) c).
Definition am_step (s : amt) (o : amop) : outcome amt unit :=
  let put kp kd a b c := mkAmt (o_nv s) kp kd a b c (o_L s) (o_err s) (o_des s) (o_dr s) (o_c s) in
  match o with
  | OKp k => if vlen k =? 3 then Ret (put (vget k) (o_kd s) (o_val s) (o_der s) (o_sec s)) tt else Exc s
  | OKd k => if vlen k =? 3 then Ret (put (o_kp s) (vget k) (o_val s) (o_der s) (o_sec s)) tt else Exc s
  | ORef a b c => Ret (put (o_kp s) (o_kd s) a b c) tt
  | OCompute v d => match am_compute s v d with Some s' => Ret s' tt | None => Undef end
  end.
(** getdMomentum am:57-59. *)
Definition am_dmomentum (s : amt) (dv : vec K) : option (vec K) :=
  do a <- mvec (c_mat (o_c s)) dv; vsub a (mkVec 3 (o_dr s)).
End FT.
Arguments rows : clear implicits.
Arguments mtask : clear implicits.
Arguments fdata : clear implicits.
Arguments se3t : clear implicits.
Arguments se3op : clear implicits.
Arguments tft : clear implicits.
Arguments tfop : clear implicits.
Arguments cdata : clear implicits.
Arguments comt : clear implicits.
Arguments comop : clear implicits.
Arguments adata : clear implicits.
Arguments amt : clear implicits.
Arguments amop : clear implicits.
