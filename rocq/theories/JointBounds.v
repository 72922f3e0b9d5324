(** Joint limit tasks: src/tasks/task-joint-bounds.cpp ("jb") and
    src/tasks/task-joint-posVelAcc-bounds.cpp ("pva"). *)
From Coq Require Import String List Arith Bool ZArith QArith Lia.
From Verif Require Import Scalar Outcome Linalg Constraint Masks.
Import ListNotations.
Open Scope string_scope.
Open Scope list_scope.
Open Scope nat_scope.

Section JB.
Context {K : num}.
(** Constant 1e10 of both files. *)
Definition huge : K := nofQ 10000000000.
Definition mhuge : K := nofQ (-10000000000).
Definition two : K := nofQ 2.

(** * TaskJointBounds *)
Record jb := mkJb { b_na : nat; b_nv : nat; b_dt : K;
  b_vlb : vec K; b_vub : vec K; b_alb : vec K; b_aub : vec K; b_c : constr K }.
(** [v] with the entries [off .. off+n) given by [f]. *)
Definition over (v : vec K) (off n : nat) (f : nat -> K) : vec K :=
  mkVec (vlen v) (fun r => if (off <=? r) && (r <? off + n) then f (r - off) else vget v r).
(** Constructor jb:14-34; None: the throw for dt <= 0. *)
Definition jb_new (name : string) (nv na : nat) (dt : K) : option jb :=
  if (n0 <? dt)%num then
    let c := new_bound name nv in
    Some (mkJb na nv dt
      (mkVec na (fun _ => (mhuge * n1)%num)) (mkVec na (fun _ => (huge * n1)%num))
      (mkVec na (fun _ => (mhuge * n1)%num)) (mkVec na (fun _ => (huge * n1)%num))
      (mkConstr name CBound (c_mat c) (c_vec c)
         (over (c_lb c) 0 (nv - na) (fun _ => mhuge)) (over (c_ub c) 0 (nv - na) (fun _ => huge))))
  else None.
Inductive jbop := JDt (dt : K) | JVel (l u : vec K) | JAcc (l u : vec K) | JMask (m : vec K) | JCompute (v : vec K).
(** compute jb:89-105; v.tail(na) asserts na <= size. *)
Definition jb_compute (s : jb) (v : vec K) : option jb :=
  do vt <- vtail v (b_na s);
  do du <- vsub (b_vub s) vt;
  do dl <- vsub (b_vlb s) vt;
  do _ <- guard ((vlen (b_aub s) =? b_na s) && (vlen (b_alb s) =? b_na s));
  let off := b_nv s - b_na s in
  let c := b_c s in
  Some (mkJb (b_na s) (b_nv s) (b_dt s) (b_vlb s) (b_vub s) (b_alb s) (b_aub s)
    (mkConstr (c_name c) (c_kind c) (c_mat c) (c_vec c)
       (over (c_lb c) off (b_na s) (fun i => nmax (vget dl i / b_dt s)%num (vget (b_alb s) i)))
       (over (c_ub c) off (b_na s) (fun i => nmin (vget du i / b_dt s)%num (vget (b_aub s) i))))).
(** jb:50-87: the checks throw; setMask stores an unused mask. *)
Definition jb_step (s : jb) (o : jbop) : outcome jb unit :=
  match o with
  | JDt dt => if (n0 <? dt)%num then Ret (mkJb (b_na s) (b_nv s) dt (b_vlb s) (b_vub s) (b_alb s) (b_aub s) (b_c s)) tt else Exc s
  | JVel l u => if (vlen l =? b_na s) && (vlen u =? b_na s)
                then Ret (mkJb (b_na s) (b_nv s) (b_dt s) l u (b_alb s) (b_aub s) (b_c s)) tt else Exc s
  | JAcc l u => if (vlen l =? b_na s) && (vlen u =? b_na s)
                then Ret (mkJb (b_na s) (b_nv s) (b_dt s) (b_vlb s) (b_vub s) l u (b_c s)) tt else Exc s
  | JMask _ => Ret s tt
  | JCompute v => match jb_compute s v with Some s' => Ret s' tt | None => Undef end
  end.

(** * TaskJointPosVelAccBounds *)
(** std::sqrt and the truncation of the mask. *)
Variable sq : K -> K.
Variable toZ : K -> Z.
Definition eps : K := nofQ (1 # 10000000000).
Definition nabs (x : K) : K := if (x <? n0)%num then (- x)%num else x.

(** computeAccLimitsFromPosLimits for one joint, pva:266-309: (lower, upper).
    [tds] is m_two_dt_sq, [h] is m_dt. *)
Definition pos_lim (h tds qmin qmax q v : K) : K * K :=
  let mx := (tds * (qmax - q - h * v))%num in
  let mn := (tds * (qmin - q - h * v))%num in
  let stop := (- v / h)%num in
  if (v <=? n0)%num then
    ((if (mn <? stop)%num then mn
      else if negb (q =? qmin)%num then nmax ((v * v) / (two * (q - qmin)))%num stop
      else n0), mx)
  else
    (mn, (if (stop <? mx)%num then mx
          else if negb (q =? qmax)%num then nmin ((- (v * v)) / (two * (qmax - q)))%num stop
          else n0)).
(** computeAccLimitsFromViability for one joint, pva:310-354.  [dts] is m_dt_square,
    [ta] is m_two_a. *)
Definition via_lim (h dts ta A qmin qmax q v : K) : K * K :=
  let hv := (h * v)%num in
  let stop := (- v / h)%num in
  let b1 := (two * hv + A * dts)%num in
  let b2 := (two * hv - A * dts)%num in
  let c1 := (v * v - two * A * (qmax - (q + hv)))%num in
  let d1 := (b1 * b1 - two * ta * c1)%num in
  let c2 := (v * v - two * A * ((q + hv) - qmin))%num in
  let d2 := (b2 * b2 - two * ta * c2)%num in
  let a1 := if (n0 <=? d1)%num then ((- b1 + sq d1) / ta)%num else stop in
  let a2 := if (n0 <=? d2)%num then ((- b2 - sq d2) / ta)%num else stop in
  (nmin a2 stop, nmax a1 stop).
(** Velocity and acceleration limits for one joint, pva:376-385,390-396. *)
Definition vel_lim (on : bool) (h dqmax v : K) : K * K :=
  if on then ((- dqmax - v) / h, (dqmax - v) / h)%num else (mhuge, huge).
Definition acc_lim (on : bool) (A : K) : K * K := if on then ((- A)%num, A) else (mhuge, huge).
(** Most conservative limits and conflict resolution, pva:397-432.  minCoeff and
    maxCoeff visit the four entries in order (Eigen may use another order, which
    matters only for NaN). *)
Definition resolve (p w x y : K * K) : K * K :=
  let lb := nmax (nmax (nmax (fst p) (fst w)) (fst x)) (fst y) in
  let ub := nmin (nmin (nmin (snd p) (snd w)) (snd x)) (snd y) in
  if (ub <? lb)%num then (if (ub =? snd p)%num then (ub, ub) else (lb, lb)) else (lb, ub).
(** isStateViable for one joint, pva:212-264 (without the messages): m_viabViol[i]. *)
Definition viol (qmin qmax dqmax A q v : K) : K :=
  let r0 := n0 in
  let r1 := if (q <? qmin - eps)%num then (qmin - q)%num else r0 in
  let r2 := if (qmax + eps <? q)%num then (q - qmax)%num else r1 in
  let r3 := if (dqmax + eps <? nabs v)%num then (nabs v - dqmax)%num else r2 in
  let up := sq (nmax n0 (two * A * (qmax - q))%num) in
  let r4 := if (up + eps <? v)%num then (v - up)%num else r3 in
  let dn := (- sq (nmax n0 (two * A * (q - qmin))%num))%num in
  if (v <? dn + eps)%num then (dn - v)%num else r4.

Record pva := mkPva { p_na : nat; p_nv : nat;
  p_dt : K; p_tds : K; p_dts : K; p_ta : K;
  p_qmin : vec K; p_qmax : vec K; p_dqmax : vec K; p_ddqmax : vec K;
  p_ipos : bool; p_ivel : bool; p_ivia : bool; p_iacc : bool;
  p_pos : nat -> K * K; p_via : nat -> K * K;  (* m_ddqLBPos/UBPos, m_ddqLBVia/UBVia *)
  p_viol : nat -> K;
  p_mask : vec K; p_axn : nat; p_ax : nat -> nat;
  p_c : constr K }.
Definition const_vec (n : nat) (x : K) : vec K := mkVec n (fun _ => x).

(** setMask pva:104-123.  None: undefined behaviour; the boolean is false after a
    throw. *)
Definition pva_mask (jk : nat -> nat) (s : pva) (m : vec K) : option (pva * bool) :=
  let put ax axn c := mkPva (p_na s) (p_nv s) (p_dt s) (p_tds s) (p_dts s) (p_ta s)
      (p_qmin s) (p_qmax s) (p_dqmax s) (p_ddqmax s) (p_ipos s) (p_ivel s) (p_ivia s) (p_iacc s)
      (p_pos s) (p_via s) (p_viol s) m axn ax c in
  match set_mask toZ jk (p_nv s) (p_nv s - p_na s) (fun _ => n1) m with
  | MOk d M ax => do c <- cresize (p_c s) d (p_nv s); Some (put ax d (cset_mat c M), true)
  | MThrow d ax => Some (put ax d (p_c s), false)
  | MUndef => None
  end.
(** Constructor pva:22-94.  None: undefined behaviour; Some None: the throw for
    dt <= 0. *)
Definition pva_new (jk : nat -> nat) (name : string) (nv na : nat) (dt : K) : option (option pva) :=
  if (n0 <? dt)%num then
    let h := (two * dt)%num in
    let lim := fun _ : nat => (mhuge, huge) in
    do (s, ok) <- pva_mask jk
      (mkPva na nv h (two / (h * h))%num (h * h)%num (two * (h * h))%num
         (const_vec na mhuge) (const_vec na huge) (const_vec na huge) (const_vec na huge)
         false false false false lim lim (fun _ => n0) (vzero 0) 0 jk (new_ineq name na nv))
      (const_vec na n1);
    (* upperBound()(i) = 1e10 for i < na: asserts that the vector is long enough *)
    do _ <- guard (na <=? vlen (c_lb (p_c s)));
    let c := p_c s in
    Some (if ok : bool then Some (mkPva na nv (p_dt s) (p_tds s) (p_dts s) (p_ta s)
         (p_qmin s) (p_qmax s) (p_dqmax s) (p_ddqmax s) (p_ipos s) (p_ivel s) (p_ivia s) (p_iacc s)
         (p_pos s) (p_via s) (p_viol s) (p_mask s) (p_axn s) (p_ax s)
         (mkConstr (c_name c) (c_kind c) (c_mat c) (c_vec c)
            (over (c_lb c) 0 na (fun _ => mhuge)) (over (c_ub c) 0 na (fun _ => huge)))) else None)
  else Some None.

Inductive pvaop :=
| PDt (dt : K) | PPos (l u : vec K) | PVel (u : vec K) | PAcc (u : vec K)
| PImpose (pos vel via acc : bool) | PMask (jk : nat -> nat) (m : vec K) | PVerbose (b : bool)
| PCompute (q v : vec K).
(** compute pva:188-201 with computeAccLimits pva:356-434; q.tail(na) and v.tail(na)
    assert the sizes. *)
Definition pva_compute (s : pva) (q v : vec K) : option pva :=
  do qa <- vtail q (p_na s);
  do va <- vtail v (p_na s);
  let h := p_dt s in
  let pos := if p_ipos s then fun i => pos_lim h (p_tds s) (vget (p_qmin s) i) (vget (p_qmax s) i) (vget qa i) (vget va i)
             else p_pos s in
  let via := if p_ivia s then fun i => via_lim h (p_dts s) (p_ta s) (vget (p_ddqmax s) i) (vget (p_qmin s) i) (vget (p_qmax s) i) (vget qa i) (vget va i)
             else p_via s in
  let lim i := resolve (pos i) (via i) (vel_lim (p_ivel s) h (vget (p_dqmax s) i) (vget va i)) (acc_lim (p_iacc s) (vget (p_ddqmax s) i)) in
  let c := p_c s in
  Some (mkPva (p_na s) (p_nv s) (p_dt s) (p_tds s) (p_dts s) (p_ta s)
      (p_qmin s) (p_qmax s) (p_dqmax s) (p_ddqmax s) (p_ipos s) (p_ivel s) (p_ivia s) (p_iacc s)
      pos via
      (fun i => viol (vget (p_qmin s) i) (vget (p_qmax s) i) (vget (p_dqmax s) i) (vget (p_ddqmax s) i) (vget qa i) (vget va i))
      (p_mask s) (p_axn s) (p_ax s)
      (mkConstr (c_name c) (c_kind c) (c_mat c) (c_vec c)
         (mkVec (p_na s) (fun i => fst (lim i))) (mkVec (p_na s) (fun i => snd (lim i))))).
Definition w_lims s dt qmin qmax dqmax ddqmax ipos ivel ivia iacc : pva :=
  mkPva (p_na s) (p_nv s) dt (p_tds s) (p_dts s) (p_ta s) qmin qmax dqmax ddqmax ipos ivel ivia iacc
    (p_pos s) (p_via s) (p_viol s) (p_mask s) (p_axn s) (p_ax s) (p_c s).
(** pva:96-186 and pva:203-210; verbose only prints. *)
Definition pva_step (s : pva) (o : pvaop) : outcome pva unit :=
  match o with
  | PDt dt => if (n0 <? dt)%num then Ret (w_lims s dt (p_qmin s) (p_qmax s) (p_dqmax s) (p_ddqmax s) (p_ipos s) (p_ivel s) (p_ivia s) (p_iacc s)) tt
              else Exc s
  | PPos l u => if (vlen l =? p_na s) && (vlen u =? p_na s)
                then Ret (w_lims s (p_dt s) l u (p_dqmax s) (p_ddqmax s) true (p_ivel s) true (p_iacc s)) tt else Exc s
  | PVel u => if vlen u =? p_na s
              then Ret (w_lims s (p_dt s) (p_qmin s) (p_qmax s) u (p_ddqmax s) (p_ipos s) true (p_ivia s) (p_iacc s)) tt else Exc s
  | PAcc u => if vlen u =? p_na s
              then Ret (w_lims s (p_dt s) (p_qmin s) (p_qmax s) (p_dqmax s) u (p_ipos s) (p_ivel s) (p_ivia s) true) tt else Exc s
  | PImpose a b c d => Ret (w_lims s (p_dt s) (p_qmin s) (p_qmax s) (p_dqmax s) (p_ddqmax s) a b c d) tt
  | PMask jk m => if vlen m =? p_na s then
                    match pva_mask jk s m with
                    | Some (s', true) => Ret s' tt
                    | Some (s', false) => Exc s'
                    | None => Undef
                    end
                  else Exc s
  | PVerbose _ => Ret s tt
  | PCompute q v => match pva_compute s q v with Some s' => Ret s' tt | None => Undef end
  end.
End JB.
Arguments jb : clear implicits.
Arguments jbop : clear implicits.
Arguments pva : clear implicits.
Arguments pvaop : clear implicits.
