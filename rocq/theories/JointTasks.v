(** Masked joint tasks: src/tasks/task-joint-posture.cpp ("po"),
    src/tasks/task-actuation-bounds.cpp ("ab") and
    src/tasks/task-actuation-equality.cpp ("ae"). *)
From Coq Require Import String List Arith Bool ZArith QArith Lia.
From Verif Require Import Scalar Outcome Linalg Constraint Masks JointBounds.
Import ListNotations.
Open Scope string_scope.
Open Scope list_scope.
Open Scope nat_scope.

Section JT.
Context {K : num}.
(** Conversion of the sum of a mask to an integer. *)
Variable toZ : K -> Z.
(** pinocchio::difference(model, q0, q1), a vector of size nv. *)
Variable dif : vec K -> vec K -> nat -> K.

(** for i < n: vec(i) = f(ax(i)), where f has size [lim]: eigen_assert on all indices. *)
Definition fill (v : vec K) (n : nat) (ax : nat -> nat) (lim : nat) (f : nat -> K) : option (vec K) :=
  if (n <=? vlen v) && forallb (fun i => ax i <? lim) (seq 0 n) then Some (over v 0 n (fun i => f (ax i))) else None.

(** * TaskJointPosture *)
Record post := mkPost {
  t_nq : nat; t_nqa : nat; t_nv : nat; t_na : nat;
  t_kp : vec K; t_kd : vec K;
  t_val : vec K; t_der : vec K; t_sec : vec K;      (* m_ref *)
  t_aug : vec K;                                    (* m_ref_q_augmented *)
  t_mask : vec K; t_axn : nat; t_ax : nat -> nat;
  t_perr : vec K; t_verr : vec K; t_p : vec K; t_v : vec K; t_ades : vec K;
  t_c : constr K }.
(** setMask po:34-54 after the check of the size.  None: undefined behaviour; the
    boolean is false after a throw (the mask and m_activeAxes are already changed). *)
Definition post_mask (jk : nat -> nat) (s : post) (m : vec K) : option (post * bool) :=
  let put ax axn c := mkPost (t_nq s) (t_nqa s) (t_nv s) (t_na s) (t_kp s) (t_kd s) (t_val s) (t_der s) (t_sec s)
      (t_aug s) m axn ax (t_perr s) (t_verr s) (t_p s) (t_v s) (t_ades s) c in
  match set_mask toZ jk (t_nv s) (t_nv s - t_na s) (fun _ => n1) m with
  | MOk d M ax => do c <- cresize (t_c s) d (t_nv s); Some (put ax d (cset_mat c M), true)
  | MThrow d ax => Some (put ax d (t_c s), false)
  | MUndef => None
  end.
(** Constructor po:15-24; [neu] is pinocchio::neutral(model), of size nq.  A
    TrajectorySample is created with zeros (trajectory-base.hpp:53-65). *)
Definition post_new (jk : nat -> nat) (name : string) (neu : vec K) (nqa nv na : nat) : option post :=
  do (s, ok) <- post_mask jk
    (mkPost (vlen neu) nqa nv na (vzero na) (vzero na) (vzero nqa) (vzero na) (vzero na) neu
       (vzero 0) 0 jk (vzero 0) (vzero 0) (vzero 0) (vzero 0) (vzero 0) (new_eq name na nv))
    (mkVec na (fun _ => n1));
  if ok : bool then Some s else None.
Inductive postop :=
| TKp (k : vec K) | TKd (k : vec K) | TRef (val der sec : vec K) | TMask (jk : nat -> nat) (m : vec K)
| TCompute (q v : vec K).
(** compute po:123-141.  pinocchio::difference throws unless q has size nq. *)
Definition post_compute (s : post) (q v : vec K) : outcome post unit :=
  match (if t_nqa s <=? vlen (t_aug s) then vset_seg (t_aug s) (vlen (t_aug s) - t_nqa s) (t_nqa s) (t_val s) else None) with
  | None => Undef
  | Some aug =>
      let put perr verr va ades c := mkPost (t_nq s) (t_nqa s) (t_nv s) (t_na s) (t_kp s) (t_kd s) (t_val s) (t_der s) (t_sec s)
          aug (t_mask s) (t_axn s) (t_ax s) perr verr (t_p s) va ades c in
      if vlen q =? t_nq s then
        match (do pe <- vtail (mkVec (t_nv s) (dif aug q)) (t_na s);
               do va <- vtail v (t_na s);
               do ve <- vsub va (t_der s);
               do _ <- guard ((vlen (t_kp s) =? vlen pe) && (vlen (t_kd s) =? vlen ve) && (vlen pe =? vlen ve) && (vlen ve =? vlen (t_sec s)));
               let ad := mkVec (vlen ve) (fun i => (- (vget (t_kp s) i * vget pe i) - vget (t_kd s) i * vget ve i + vget (t_sec s) i)%num) in
               do b <- fill (c_vec (t_c s)) (t_axn s) (t_ax s) (vlen ad) (vget ad);
               do c <- cset_vec (t_c s) b;
               Some (put pe ve va ad c)) with
        | Some s' => Ret s' tt
        | None => Undef
        end
      else Exc (put (t_perr s) (t_verr s) (t_v s) (t_ades s) (t_c s))
  end.
(** Setters po:62-91. *)
Definition post_step (s : post) (o : postop) : outcome post unit :=
  let put kp kd va de se := mkPost (t_nq s) (t_nqa s) (t_nv s) (t_na s) kp kd va de se
      (t_aug s) (t_mask s) (t_axn s) (t_ax s) (t_perr s) (t_verr s) (t_p s) (t_v s) (t_ades s) (t_c s) in
  match o with
  | TKp k => if vlen k =? t_na s then Ret (put k (t_kd s) (t_val s) (t_der s) (t_sec s)) tt else Exc s
  | TKd k => if vlen k =? t_na s then Ret (put (t_kp s) k (t_val s) (t_der s) (t_sec s)) tt else Exc s
  | TRef va de se => if (vlen va =? t_nqa s) && (vlen de =? t_na s) && (vlen se =? t_na s)
                     then Ret (put (t_kp s) (t_kd s) va de se) tt else Exc s
  | TMask jk m => if vlen m =? t_na s then
                    match post_mask jk s m with
                    | Some (s', true) => Ret s' tt
                    | Some (s', false) => Exc s'
                    | None => Undef
                    end
                  else Exc s
  | TCompute q v => post_compute s q v
  end.
(** dim() po:56 and getAcceleration po:99-101. *)
Definition post_dim (s : post) : Z := toZ (nsum (vlen (t_mask s)) (vget (t_mask s))).
Definition post_acc (s : post) (dv : vec K) : option (vec K) := mvec (c_mat (t_c s)) dv.

(** * TaskActuationBounds *)
Record actb := mkActb { u_na : nat; u_mask : vec K; u_axn : nat; u_ax : nat -> nat; u_c : constr K }.
(** mask ab:23-42 after the check of the size. *)
Definition actb_mask (jk : nat -> nat) (s : actb) (m : vec K) : option (actb * bool) :=
  match set_mask toZ jk (u_na s) 0 (fun _ => n1) m with
  | MOk d M ax => do c <- cresize (u_c s) d (u_na s); Some (mkActb (u_na s) m d ax (cset_mat c M), true)
  | MThrow d ax => Some (mkActb (u_na s) m d ax (u_c s), false)
  | MUndef => None
  end.
(** Constructor ab:14-19. *)
Definition actb_new (jk : nat -> nat) (name : string) (na : nat) : option actb :=
  do (s, ok) <- actb_mask jk (mkActb na (vzero 0) 0 jk (new_ineq name na na)) (mkVec na (fun _ => n1));
  if ok : bool then Some s else None.
(** dim() ab:44. *)
Definition actb_dim (s : actb) : Z := toZ (nsum (vlen (u_mask s)) (vget (u_mask s))).
Inductive actbop := UMask (jk : nat -> nat) (m : vec K) | UBounds (l u : vec K) | UCompute.
(** setBounds ab:54-66; compute ab:72-75 does nothing. *)
Definition actb_step (s : actb) (o : actbop) : outcome actb unit :=
  match o with
  | UMask jk m => if vlen m =? u_na s then
                    match actb_mask jk s m with
                    | Some (s', true) => Ret s' tt
                    | Some (s', false) => Exc s'
                    | None => Undef
                    end
                  else Exc s
  | UBounds l u => if (Z.of_nat (vlen l) =? actb_dim s)%Z && (Z.of_nat (vlen u) =? actb_dim s)%Z then
                     match (do c <- cset_lb (u_c s) l; cset_ub c u) with
                     | Some c => Ret (mkActb (u_na s) (u_mask s) (u_axn s) (u_ax s) c) tt
                     | None => Undef
                     end
                   else Exc s
  | UCompute => Ret s tt
  end.

(** * TaskActuationEquality *)
Record acte := mkActe { e_na : nat; e_mask : vec K; e_ref : vec K; e_w : vec K; e_axn : nat; e_ax : nat -> nat; e_c : constr K }.
(** for i < axes: vector()(i) = ref(axis) * weight(axis), ae:46-48, 62-64, 80-81. *)
Definition acte_fill (s : acte) (c : constr K) : option (constr K) :=
  do b <- fill (c_vec c) (e_axn s) (e_ax s) (Nat.min (vlen (e_ref s)) (vlen (e_w s))) (fun i => (vget (e_ref s) i * vget (e_w s) i)%num);
  cset_vec c b.
(** mask ae:24-49 after the check of the size; m_weights(i) is read for i < na. *)
Definition acte_mask (jk : nat -> nat) (s : acte) (m : vec K) : option (acte * bool) :=
  do _ <- guard (vlen m <=? vlen (e_w s));
  match set_mask toZ jk (e_na s) 0 (vget (e_w s)) m with
  | MOk d M ax =>
      do c <- cresize (e_c s) d (e_na s);
      let s1 := mkActe (e_na s) m (e_ref s) (e_w s) d ax (cset_mat c M) in
      do c' <- acte_fill s1 (e_c s1);
      Some (mkActe (e_na s) m (e_ref s) (e_w s) d ax c', true)
  | MThrow d ax => Some (mkActe (e_na s) m (e_ref s) (e_w s) d ax (e_c s), false)
  | MUndef => None
  end.
(** Constructor ae:13-20. *)
Definition acte_new (jk : nat -> nat) (name : string) (na : nat) : option acte :=
  do (s, ok) <- acte_mask jk (mkActe na (vzero 0) (vzero na) (mkVec na (fun _ => n1)) 0 jk (new_eq name na na)) (mkVec na (fun _ => n1));
  if ok : bool then Some s else None.
Inductive acteop := EMask (jk : nat -> nat) (m : vec K) | ERef (r : vec K) | EWeight (w : vec K) | ECompute.
(** setReference ae:55-65, setWeightVector ae:71-83, compute ae:93-97. *)
Definition acte_step (s : acte) (o : acteop) : outcome acte unit :=
  match o with
  | EMask jk m => if vlen m =? e_na s then
                    match acte_mask jk s m with
                    | Some (s', true) => Ret s' tt
                    | Some (s', false) => Exc s'
                    | None => Undef
                    end
                  else Exc s
  | ERef r => if vlen r =? e_na s then
                let s1 := mkActe (e_na s) (e_mask s) r (e_w s) (e_axn s) (e_ax s) (e_c s) in
                match acte_fill s1 (e_c s1) with
                | Some c => Ret (mkActe (e_na s) (e_mask s) r (e_w s) (e_axn s) (e_ax s) c) tt
                | None => Undef
                end
              else Exc s
  | EWeight w => if vlen w =? e_na s then
                let s1 := mkActe (e_na s) (e_mask s) (e_ref s) w (e_axn s) (e_ax s) (e_c s) in
                let M := c_mat (e_c s) in
                if (e_axn s <=? mrows M) && forallb (fun i => e_ax s i <? mcols M) (seq 0 (e_axn s)) then
                  match acte_fill s1 (cset_mat (e_c s)
                          (mkMat (mrows M) (mcols M) (fun r c => if (r <? e_axn s) && (c =? e_ax s r) then vget w (e_ax s r) else mget M r c))) with
                  | Some c => Ret (mkActe (e_na s) (e_mask s) (e_ref s) w (e_axn s) (e_ax s) c) tt
                  | None => Undef
                  end
                else Undef
              else Exc s
  | ECompute => Ret s tt
  end.
End JT.
Arguments post : clear implicits.
Arguments postop : clear implicits.
Arguments actb : clear implicits.
Arguments actbop : clear implicits.
Arguments acte : clear implicits.
Arguments acteop : clear implicits.
