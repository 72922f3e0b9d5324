(** Force tasks and the capture point task: src/tasks/task-cop-equality.cpp ("cp"),
    src/tasks/task-capture-point-inequality.cpp ("ca"),
    src/tasks/task-contact-force-equality.cpp ("cf"). *)
From Coq Require Import String List Arith Bool ZArith QArith Lia.
From Verif Require Import Scalar Outcome Linalg Constraint FrameTasks.
Import ListNotations.
Open Scope string_scope.
Open Scope list_scope.
Open Scope nat_scope.

Section FO.
Context {K : num}.
(** sqrt. *)
Variable sq : K -> K.

(** * TaskCopEquality *)
(** A contact of the list: cl->index, n_force(), getContactPoints() (3 rows) and the
    placement of the frame of its motion task. *)
Record ccon := mkCcon { w_idx : nat; w_nf : nat; w_pts : mat K; w_R : @mat3 K; w_p : @vec3 K }.
Record copt := mkCopt { q_n : @vec3 K; q_ref : @vec3 K; q_c : constr K }.
(** Constructor cp:13-19. *)
Definition cop_new (name : string) : copt := mkCopt (fun i => if i =? 2 then n1 else n0) (fun _ => n0) (new_eq name 3 3).
(** oMi.act(p_local) cp:64. *)
Definition world_pt (c : ccon) (j : nat) : @vec3 K := fun r => (nsum 3 (fun k => w_R c r k * mget (w_pts c) k j) + w_p c r)%num.
(** M.middleCols(i + 3j, 3) = (p_world - ref) n^T (cp:62-68). *)
Definition cop_point (s : copt) (n : nat) (c : ccon) (A : mat K) (j : nat) : option (mat K) :=
  if w_idx c + 3 * j + 3 <=? n then
    Some (mkMat (mrows A) (mcols A) (fun r k =>
      if (w_idx c + 3 * j <=? k) && (k <? w_idx c + 3 * j + 3) then ((world_pt c j r - q_ref s r) * q_n s (k - (w_idx c + 3 * j))%nat)%num else mget A r k))
  else None.
(** compute cp:38-71; [jk] is the memory M.resize leaves uninitialised. *)
Definition cop_compute (jk : mat K) (s : copt) (l : list ccon) : option copt :=
  let n := fold_right (fun c a => w_nf c + a) 0 l in
  do A <- ofold (fun A c => ofold (cop_point s n c) (seq 0 (mcols (w_pts c))) A) l (mkMat 3 n (mget jk));
  Some (mkCopt (q_n s) (q_ref s) (cset_mat (q_c s) A)).
Inductive copop := QRef (r : @vec3 K) | QNormal (n : @vec3 K) | QCompute (jk : mat K) (l : list ccon).
Definition cop_step (s : copt) (o : copop) : outcome copt unit :=
  match o with
  | QRef r => Ret (mkCopt (q_n s) r (q_c s)) tt
  | QNormal n => Ret (mkCopt n (q_ref s) (q_c s)) tt
  | QCompute jk l => match cop_compute jk s l with Some s' => Ret s' tt | None => Undef end
  end.

(** * TaskCapturePointInequality *)
(** State: nv, time step, gravity norm, support limits (min, max) and margins per axis,
    drift and constraint. *)
Record capt := mkCapt { v_nv : nat; v_dt : K; v_g : K; v_min : nat -> K; v_max : nat -> K; v_mar : nat -> K; v_dr : @vec3 K; v_c : constr K }.
(** Constructor ca:21-46. *)
Definition cap_new (name : string) (nv : nat) (dt g : K) (jk : @vec3 K) : capt :=
  mkCapt nv dt g (fun _ => n0) (fun _ => n0) (fun _ => n0) jk (new_ineq name 2 nv).
Inductive capop := VLimX (a b : K) | VLimY (a b : K) | VMargin (x y : K) | VCompute (d : cdata K).
(** compute ca:85-119. *)
Definition cap_compute (s : capt) (d : cdata K) : option capt :=
  let w := sq (v_g s / g_p d 2)%num in
  let two := (nofQ 2) in
  let ka := (two * w / ((w * v_dt s + two) * v_dt s))%num in
  let b rp i := (ka * (rp - g_p d i - g_v d i * (v_dt s + n1 / w)))%num in
  do c1 <- cset_lb (v_c s) (mkVec 2 (fun i => b (v_min s i + v_mar s i) i - g_a d i)%num);
  do c2 <- cset_ub c1 (mkVec 2 (fun i => b (v_max s i - v_mar s i) i - g_a d i)%num);
  do _ <- guard ((mrows (c_mat c2) =? 2) && (mcols (c_mat c2) =? v_nv s));
  Some (mkCapt (v_nv s) (v_dt s) (v_g s) (v_min s) (v_max s) (v_mar s) (g_a d) (cset_mat c2 (mkMat 2 (v_nv s) (g_J d)))).
(** Setters ca:59-83. *)
Definition cap_step (s : capt) (o : capop) : outcome capt unit :=
  let upd (f : nat -> K) i x := fun j => if j =? i then x else f j in
  match o with
  | VLimX a b => if (a <=? b)%num then Ret (mkCapt (v_nv s) (v_dt s) (v_g s) (upd (v_min s) 0 a) (upd (v_max s) 0 b) (v_mar s) (v_dr s) (v_c s)) tt else Exc s
  | VLimY a b => if (a <=? b)%num then Ret (mkCapt (v_nv s) (v_dt s) (v_g s) (upd (v_min s) 1 a) (upd (v_max s) 1 b) (v_mar s) (v_dr s) (v_c s)) tt else Exc s
  | VMargin x y => Ret (mkCapt (v_nv s) (v_dt s) (v_g s) (v_min s) (v_max s) (upd (upd (v_mar s) 0 x) 1 y) (v_dr s) (v_c s)) tt
  | VCompute d => match cap_compute s d with Some s' => Ret s' tt | None => Undef end
  end.
(** getAcceleration ca:50-52: m_drift has three entries. *)
Definition cap_acc (s : capt) (dv : vec K) : option (vec K) :=
  do a <- mvec (c_mat (v_c s)) dv; vsub a (mkVec 3 (v_dr s)).

(** * TaskContactForceEquality *)
Record cft := mkCft { r_name : string;           (* m_contact_name *)
  r_kp : vec K; r_kd : vec K; r_ki : vec K; r_val : vec K; r_der : vec K; r_ev : vec K; r_ed : vec K;
  r_int : vec K; r_dt : K; r_leak : K; r_c : constr K }.
(** Constructor cf:15-27; the gains are empty vectors. *)
Definition cf_new (name cname : string) (dt : K) : cft :=
  mkCft cname (vzero 0) (vzero 0) (vzero 0) (vzero 6) (vzero 6) (vzero 6) (vzero 6) (vzero 6) dt (nofQ (1 # 20)) (new_eq name 6 12).
Definition cwise (u v : vec K) : option (vec K) := if vlen u =? vlen v then Some (mkVec (vlen u) (fun i => (vget u i * vget v i)%num)) else None.
(** compute cf:116-134; [B] is the force generator matrix of the contact. *)
Definition cf_compute (s : cft) (B : mat K) : option cft :=
  do e <- vsub (r_val s) (r_ev s);
  do a1 <- cwise (r_kp s) e;
  do t1 <- vadd (r_val s) a1;
  do de <- vsub (r_der s) (r_ed s);
  do a2 <- cwise (r_kd s) de;
  do t2 <- vadd t1 a2;
  do a3 <- cwise (r_ki s) (r_int s);
  do f <- vadd t2 a3;
  do c <- cset_vec (cset_mat (r_c s) B) f;
  do de' <- vsub e (mkVec (vlen (r_int s)) (fun i => r_leak s * vget (r_int s) i)%num);
  do i' <- vadd (r_int s) (mkVec (vlen de') (fun i => vget de' i * r_dt s)%num);
  Some (mkCft (r_name s) (r_kp s) (r_kd s) (r_ki s) (r_val s) (r_der s) (r_ev s) (r_ed s) i' (r_dt s) (r_leak s) c).
Inductive cfop := RKp (k : vec K) | RKd (k : vec K) | RKi (k : vec K) | RLeak (x : K) | RContact (n : string)
| RRef (val der : vec K) | RExt (val der : vec K) | RCompute (B : mat K) | RComputeIn (names : list string) (B : mat K).
(** Setters cf:38-88 and the compute with the list of contacts cf:90-114. *)
Definition cf_step (s : cft) (o : cfop) : outcome cft unit :=
  let put n kp kd ki v d ev ed lk := mkCft n kp kd ki v d ev ed (r_int s) (r_dt s) lk (r_c s) in
  let comp B := match cf_compute s B with Some s' => Ret s' tt | None => Undef end in
  match o with
  | RKp k => if vlen k =? 6 then Ret (put (r_name s) k (r_kd s) (r_ki s) (r_val s) (r_der s) (r_ev s) (r_ed s) (r_leak s)) tt else Exc s
  | RKd k => if vlen k =? 6 then Ret (put (r_name s) (r_kp s) k (r_ki s) (r_val s) (r_der s) (r_ev s) (r_ed s) (r_leak s)) tt else Exc s
  | RKi k => if vlen k =? 6 then Ret (put (r_name s) (r_kp s) (r_kd s) k (r_val s) (r_der s) (r_ev s) (r_ed s) (r_leak s)) tt else Exc s
  | RLeak x => Ret (put (r_name s) (r_kp s) (r_kd s) (r_ki s) (r_val s) (r_der s) (r_ev s) (r_ed s) x) tt
  | RContact n => Ret (put n (r_kp s) (r_kd s) (r_ki s) (r_val s) (r_der s) (r_ev s) (r_ed s) (r_leak s)) tt
  | RRef v d => Ret (put (r_name s) (r_kp s) (r_kd s) (r_ki s) v d (r_ev s) (r_ed s) (r_leak s)) tt
  | RExt v d => Ret (put (r_name s) (r_kp s) (r_kd s) (r_ki s) (r_val s) (r_der s) v d (r_leak s)) tt
  | RCompute B => comp B
  | RComputeIn names B => if negb (String.eqb (r_name s) "") && existsb (String.eqb (r_name s)) names then comp B else Ret s tt
  end.
End FO.
Arguments ccon : clear implicits.
Arguments copt : clear implicits.
Arguments copop : clear implicits.
Arguments capt : clear implicits.
Arguments capop : clear implicits.
Arguments cft : clear implicits.
Arguments cfop : clear implicits.
