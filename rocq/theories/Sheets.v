(** Programs that only add soft contacts and tasks and then run periods: which calls return, and
    what the formulation holds afterwards (used for the demos, C111). *)
From Coq Require Import String List Arith Bool ZArith Lia Reals Lra.
From Verif Require Import Scalar Outcome Linalg Constraint Formulation ListUtil FormSpec FormDataSpec FormPhysSpec RSum FormInv FormInvB FormInvC FormOps FormSafe FormSafe2 FormContact FormPhys FormMain FormCheck FormDecode Walking WalkingSpec WalkingP BipedBook SoftTasks SoftPlan SoftOrderR SoftContacts SoftCalls.
From Verif Require RobotModelR.
Import ListNotations.
Open Scope string_scope.
Open Scope list_scope.
Open Scope nat_scope.

Section Sheet.
Variables (dbg : bool) (nv na : nat) (M0 : mat Rnum) (H0 : vec Rnum).
Hypothesis Hrob : FormMain.robot_ok nv M0 H0.
Local Notation step := (@Formulation.step Rnum dbg).
Local Notation start := (init nv na M0 H0).
Local Notation item := (R * option (string * ckind * nat))%type.
Definition alone (e : env Rnum) : Prop := forall id, e_assoc e id = "".
Definition asc0 : nat -> string := fun _ => "".
Local Notation desc := (desc dbg alone nv na M0 H0).

(** What is known of a formulation: contact objects, contacts, the two levels, the tasks, and
    whether the last solution was read. *)
Record sheet := mkSheet { sh_objs : list (cobj Rnum); sh_cs : list nat; sh_q0 : list item; sh_q1 : list item; sh_book : ledger (K:=Rnum); sh_read : bool }.
Definition nforce (x : list (cobj Rnum)) (o : nat) : nat := match nth_error x o with Some c => co_nforce c | None => 0 end.
Definition width (h : sheet) : nat := list_sum (map (nforce (sh_objs h)) (sh_cs h)).
Definition blank : sheet := mkSheet [] [] [(1%R, Some ("base-dynamics", CEq, nv - na))] [] ([], [], [], [], []) false.
(** Effect of the calls. *)
Definition note (lvl : nat) (w : R) n kd r (h : sheet) (b : ledger) : sheet :=
  let x := (w, Some (n, (if is_eq kd then CEq else CIneq), r)) in
  mkSheet (sh_objs h) (sh_cs h) (if lvl =? 0 then sh_q0 h ++ [x] else sh_q0 h) (if lvl =? 0 then sh_q1 h else sh_q1 h ++ [x]) b (sh_read h).
Definition next (h : sheet) (o : fop Rnum) : sheet :=
  match o with
  | ONewContact x => mkSheet (sh_objs h ++ [x]) (sh_cs h) (sh_q0 h) (sh_q1 h) (sh_book h) (sh_read h)
  | OAddMotion _ n kd r w lvl _ | OAddAct _ n kd r w lvl _ => note lvl w n kd r h (write o (sh_book h))
  | OAddContact c wr wm _ =>
      match nth_error (sh_objs h) c with
      | Some x => mkSheet (sh_objs h) (sh_cs h ++ [c]) (sh_q0 h ++ [(1%R, Some ((co_name x ++ "_force_constraint")%string, CIneq, co_frows x))])
                    (sh_q1 h ++ [(wm, Some ((co_name x ++ "_motion_task")%string, CEq, co_mrows x)); (wr, Some ((co_name x ++ "_force_reg_task")%string, CEq, co_rrows x))]) (sh_book h) (sh_read h)
      | None => h
      end
  | Formulation.OCompute _ _ => mkSheet (sh_objs h) (sh_cs h) (sh_q0 h) (sh_q1 h) (sh_book h) false
  | OGet _ _ => mkSheet (sh_objs h) (sh_cs h) (sh_q0 h) (sh_q1 h) (sh_book h) true
  | _ => h
  end.
(** Sizes of the data of a period. *)
Definition data_fits (h : sheet) (e : env Rnum) : Prop :=
  alone e /\ mrows (e_mass e) = nv /\ mcols (e_mass e) = nv /\ vlen (e_nle e) = nv /\
  (forall o x, In o (sh_cs h) -> nth_error (sh_objs h) o = Some x -> contact_data_ok nv e o x) /\
  (let '(m, f, a, _, _) := sh_book h in
   (forall id n l w kd r, In (id, n, l) m -> In (w, Some (n, kd, r)) (sh_q0 h ++ sh_q1 h) -> task_data_ok kd r nv (e_task e id)) /\
   (forall id n l w kd r, In (id, n, l) a -> In (w, Some (n, kd, r)) (sh_q0 h ++ sh_q1 h) -> task_data_ok kd r (nv - (nv - na)) (e_task e id))).
Definition task_fits (h : sheet) n kd (w : R) lvl (d : R) : Prop :=
  (0 <= w)%R /\ (0 <= d)%R /\ lvl < 2 /\ reservedb n = false /\ existsb (String.eqb n) (map (@iname Rnum) (sh_q0 h ++ sh_q1 h)) = false /\ (lvl = 0 \/ kd = CEq).
Definition fits (h : sheet) (o : fop Rnum) : Prop :=
  match o with
  | ONewContact _ => True
  | OAddMotion _ n kd _ w lvl d => task_fits h n kd w lvl d /\ lvl = 1
  | OAddAct _ n kd _ w lvl d => task_fits h n kd w lvl d
  | OAddContact c wr wm lvl => lvl = 1 /\ (0 <= wr)%R /\ (0 <= wm)%R /\ sh_read h = false /\ exists x, nth_error (sh_objs h) c = Some x /\ ~ In (co_name x) (map (oname (sh_objs h)) (sh_cs h))
  | Formulation.OCompute _ e => data_fits h e
  | OGet _ y => vlen y = nv + width h
  | _ => False
  end.
Record now (h : sheet) (s : fstate Rnum) : Prop := mkNow {
  n_desc : desc (sh_objs h) (sh_cs h) (sh_q0 h) (sh_q1 h) s;
  n_book : book s = sh_book h;
  n_soft : reach step (soft_use dbg asc0) start s;
  n_none : snd (fst (fst (fst (sh_book h)))) = [] /\ snd (fst (sh_book h)) = [] /\ snd (sh_book h) = [];
  n_read : if sh_read h then f_dec s = true /\ vlen (f_f s) = f_k s else f_dec s = false }.

Lemma now_blank : now blank start.
Proof. constructor; [exact (desc_init dbg alone nv na M0 H0)|reflexivity|constructor|auto|reflexivity]. Qed.
Lemma now_nv h s : now h s -> f_nv s = nv /\ f_nu s = nv - na.
Proof.
  intros N. assert (Hr := d_hist _ _ _ _ _ _ _ _ _ _ _ (n_desc _ _ N)). apply (dims_reach dbg nv na M0 H0 (fun _ _ => True) s).
  eapply reach_weaken; [|exact Hr]. auto.
Qed.
Lemma now_inv h s : now h s -> invA s /\ invB s /\ safe s.
Proof. intros N. exact (desc_inv _ _ _ _ _ _ Hrob _ _ _ _ _ (n_desc _ _ N)). Qed.
Lemma now_width h s : now h s -> f_k s = width h.
Proof.
  intros N. destruct (now_inv h s N) as (A & _). assert (T := ia_tile _ A). unfold slots in T. unfold width.
  rewrite <- (d_cs _ _ _ _ _ _ _ _ _ _ _ (n_desc _ _ N)), <- (d_objs _ _ _ _ _ _ _ _ _ _ _ (n_desc _ _ N)). unfold contact_objs. rewrite map_map. revert T.
  change (fun c => nforce (f_objs s) (cl_obj c)) with (cl_nforce s). clear N. assert (G : forall l a, tiles a (map (fun c => (cl_index c, cl_nforce s c)) l) (f_k s) -> f_k s = a + list_sum (map (cl_nforce s) l)).
  { induction l as [|c l IH]; intros a T; cbn [map tiles] in T; [cbn in *; lia|]. destruct T as [_ T]. rewrite (IH _ T). unfold list_sum. cbn [map fold_right]. lia. }
  intros T. exact (G _ 0 T).
Qed.
Lemma now_contact h s c : now h s -> In c (f_contacts s) -> In (cl_obj c) (sh_cs h).
Proof. intros N Hc. rewrite <- (d_cs _ _ _ _ _ _ _ _ _ _ _ (n_desc _ _ N)). unfold contact_objs. apply in_map, Hc. Qed.
Lemma now_item h s t kd r : now h s -> In t (tasks s) -> announced s t kd r -> exists w, In (w, Some (tl_name t, kd, r)) (sh_q0 h ++ sh_q1 h).
Proof.
  intros N Ht (c & Hc & <- & <-). destruct (now_inv h s N) as (A & B & _). destruct (b_task _ B t Ht) as ((kd' & r' & E) & _ & (l & Hl & Hin)).
  assert (I : info s (tl_cstr t) = Some (tl_name t, c_kind c, mrows (c_mat c))).
  { unfold info, shapes in *. rewrite nth_error_map, Hc in *. cbn in *. unfold shape in *. cbn in *. injection E as E1 _ _. rewrite E1. reflexivity. }
  assert (It := d_items _ _ _ _ _ _ _ _ _ _ _ (n_desc _ _ N)). unfold items in It. apply in_map_iff in Hin. destruct Hin as (a & Ea & Ha). exists (fst a).
  assert (Q : In (fst a, Some (tl_name t, c_kind c, mrows (c_mat c))) (concat (map (map (fun e => (fst e, info s (snd e)))) (f_hqp s)))).
  { apply in_concat. exists (map (fun e => (fst e, info s (snd e))) l). split; [apply in_map; eapply nth_error_In; exact Hl|]. apply in_map_iff. exists a. rewrite Ea, I. auto. }
  rewrite It in Q. cbn [concat] in Q. rewrite app_nil_r in Q. exact Q.
Qed.
Lemma now_env h s e : now h s -> data_fits h e -> env_ok s e.
Proof.
  intros N (D0 & D1 & D2 & D3 & D4 & D5). destruct (now_nv h s N) as [N1 N2]. assert (Bk := n_book _ _ N). destruct (n_none _ _ N) as (Z1 & Z2 & Z3).
  destruct (sh_book h) as [[[[m f] a] x] z] eqn:Eb. cbn [fst snd] in Z1, Z2, Z3. subst f x z. unfold book in Bk. injection Bk as Bm Bf Ba Bx _. destruct D5 as [D5 D6].
  unfold env_ok. cbv zeta. rewrite N1, N2. repeat (split; [assumption|]). split; [|split; [|split; [|split]]].
  - intros c o Hc Ho. apply D4; [exact (now_contact h s c N Hc)|]. rewrite <- (d_objs _ _ _ _ _ _ _ _ _ _ _ (n_desc _ _ N)). exact Ho.
  - rewrite Bx. intros q [].
  - intros t kd r Ht An. assert (Ht' : In t (tasks s)) by (unfold tasks; apply in_or_app; left; exact Ht). destruct (now_item h s t kd r N Ht' An) as (w & Hw).
    eapply D5; [|exact Hw]. rewrite <- Bm. apply (in_map entry_of) in Ht. exact Ht.
  - intros t kd r Ht. destruct (f_forces s); [contradiction|discriminate Bf].
  - intros t kd r Ht An. assert (Ht' : In t (tasks s)) by (unfold tasks; apply in_or_app; right; apply in_or_app; right; exact Ht). destruct (now_item h s t kd r N Ht' An) as (w & Hw).
    eapply D6; [|exact Hw]. rewrite <- Ba. apply (in_map entry_of) in Ht. exact Ht.
Qed.
(** The reading state is only touched by computeProblemData and the getters. *)
Lemma resize_dec (s s' : fstate Rnum) : resize_hqp s = Some s' -> f_dec s' = f_dec s /\ f_f s' = f_f s /\ f_k s' = f_k s.
Proof. unfold resize_hqp. intros H. repeat (ob H). injection H as <-. auto. Qed.
Lemma task_dec (s : fstate Rnum) n kd r w l s' a : add_task_cstr s n kd r w l = Some (s', a) -> f_dec s' = f_dec s /\ f_f s' = f_f s /\ f_k s' = f_k s.
Proof. intros H. apply add_task_cstr_spec in H. destruct H as (? & ? & ? & _ & _ & _ & _ & _ & ->). destruct (l =? 0); [destruct (is_eq kd)|]; auto. Qed.
Lemma same_read h (s s' : fstate Rnum) : f_dec s' = f_dec s -> f_f s' = f_f s -> f_k s' = f_k s -> (if sh_read h then f_dec s = true /\ vlen (f_f s) = f_k s else f_dec s = false) ->
  if sh_read h then f_dec s' = true /\ vlen (f_f s') = f_k s' else f_dec s' = false.
Proof. intros -> -> ->. exact (fun x => x). Qed.
Lemma decode_read (s s' : fstate Rnum) y : f_k s <= vlen y -> (f_dec s = true -> vlen (f_f s) = f_k s) -> decode s y = Some s' -> f_dec s' = true /\ vlen (f_f s') = f_k s'.
Proof.
  intros L R. unfold decode. destruct (f_dec s) eqn:D; [intros H; injection H as <-; auto|]. intros H. repeat (ob H). injection H as <-. cbn. split; [reflexivity|].
  match goal with E : vtail y (f_k s) = Some ?v |- _ => unfold vtail in E; rename E into T end. unfold vsegment in T.
  repeat match type of T with (if ?b then _ else _) = _ => destruct b; [|discriminate T] end. injection T as <-. reflexivity.
Qed.
Lemma le0 (w : R) : (0 <= w)%R -> (@n0 Rnum <=? (w : Rnum))%num = true.
Proof. apply Rleb_true. Qed.

Theorem now_step h s o : now h s -> fits h o -> exists s' r, step s o = Ret s' r /\ now (next h o) s'.
Proof.
  intros N F. assert (D := n_desc _ _ N). assert (T := d_trans _ _ _ _ _ _ _ _ _ _ _ D).
  assert (Fin : forall s' r, step s o = Ret s' r -> calm o -> desc (sh_objs (next h o)) (sh_cs (next h o)) (sh_q0 (next h o)) (sh_q1 (next h o)) s' -> soft_use dbg asc0 s o ->
    (write o (sh_book h) = sh_book (next h o)) -> (snd (fst (fst (fst (sh_book (next h o))))) = [] /\ snd (fst (sh_book (next h o))) = [] /\ snd (sh_book (next h o)) = []) ->
    (if sh_read (next h o) then f_dec s' = true /\ vlen (f_f s') = f_k s' else f_dec s' = false) -> exists s' r, step s o = Ret s' r /\ now (next h o) s').
  { intros s' r E C D' U Wb Nn Rd. exists s', r. split; [exact E|]. constructor; [exact D'| |eapply reach_step; [exact (n_soft _ _ N)|exact U|rewrite E; reflexivity]|exact Nn|exact Rd].
    rewrite (step_book dbg s o s' r C T E), (n_book _ _ N). exact Wb. }
  assert (Use : forall s' r, step s o = Ret s' r -> assoc_fixed asc0 o -> soft_call o -> names_ok s o -> op_ok dbg s o -> soft_use dbg asc0 s o).
  { intros s' r _ A S Nm Op. split; [split; [split; assumption|exact A]|exact S]. }
  assert (Task : forall n kd r w lvl d, tcall n kd r w lvl d o -> task_fits h n kd w lvl d -> soft_call o -> assoc_fixed asc0 o -> calm o ->
     next h o = note lvl w n kd r h (write o (sh_book h)) -> (snd (fst (fst (fst (write o (sh_book h))))) = [] /\ snd (fst (write o (sh_book h))) = [] /\ snd (write o (sh_book h)) = []) ->
     (forall s1 a, add_task_cstr s n kd r w lvl = Some (s1, a) -> forall s' b, step s o = Ret s' b -> f_dec s' = f_dec s1 /\ f_f s' = f_f s1 /\ f_k s' = f_k s1) ->
     names_ok s o = (~ reserved n /\ ~ In n (hqp_names s)) -> op_ok dbg s o = (lvl < List.length (f_hqp s)) -> exists s' r, step s o = Ret s' r /\ now (next h o) s').
  { intros n kd r w lvl d Ht (W & Dd & L & Rs & Un & _) Sc Af Ca Nx Nn Rd En Eo.
    destruct (desc_task dbg alone nv na M0 H0 Hrob _ _ _ _ s n kd r w lvl d o D Ht (le0 w W) (le0 d Dd) L Rs Un) as (s' & b & E & D'). rewrite Nx.
    destruct (now_inv h s N) as (A & B & S). assert (L2 := hqp_two _ _ _ _ _ _ _ _ _ _ _ D). assert (Ll : lvl < List.length (f_hqp s)) by lia.
    destruct (add_task_safe s n kd r w lvl S Ll) as (s1 & a & E1 & _). destruct (Rd s1 a E1 s' b E) as (R1 & R2 & R3). destruct (task_dec _ _ _ _ _ _ _ _ E1) as (R4 & R5 & R6).
    rewrite Nx in Fin. eapply Fin; [exact E|exact Ca|exact D'| |reflexivity|exact Nn|].
    - apply (Use s' b E Af Sc); [rewrite En|rewrite Eo; exact Ll]. split; [apply reservedb_ok; exact Rs|].
      rewrite (names_items s (invA_valid _ A)), (d_items _ _ _ _ _ _ _ _ _ _ _ D). cbn [concat]. rewrite app_nil_r. apply inb_ok. exact Un.
    - exact (same_read h s s' ltac:(congruence) ltac:(congruence) ltac:(congruence) (n_read _ _ N)). }
  assert (Nn := n_none _ _ N). destruct o; try contradiction F.
  - destruct (desc_new dbg alone nv na M0 H0 _ _ _ _ s c D) as (s' & r & E & D' & ->).
    eapply Fin; [exact E|exact I|exact D'|apply (Use _ _ E I I I I)|cbn [next sh_book]; destruct (sh_book h) as [[[[? ?] ?] ?] ?]; reflexivity|exact Nn|exact (n_read _ _ N)].
  - destruct F as [F ->]. eapply (Task name kd rows w 1 dur (tcall_m _ _ _ _ _ _ id)); [exact F|split; [reflexivity|]|exact I|exact I|reflexivity| | |reflexivity|reflexivity].
    + destruct F as (_ & _ & _ & _ & _ & [F|F]); [discriminate F|exact F].
    + destruct (sh_book h) as [[[[? ?] ?] ?] ?]. exact Nn.
    + intros s1 a E1 s' b. cbn [Formulation.step]. unfold add_motion. rewrite E1. destruct (args_ok w dur); [|discriminate]. intros X. injection X as <- _. auto.
  - eapply (Task name kd rows w lvl dur (tcall_a _ _ _ _ _ _ id)); [exact F|apply F|exact I|exact I|reflexivity| | |reflexivity|reflexivity].
    + destruct (sh_book h) as [[[[? ?] ?] ?] ?]. exact Nn.
    + intros s1 a E1 s' b. cbn [Formulation.step]. unfold add_act. rewrite E1. destruct (args_ok w dur); [|discriminate]. intros X. injection X as <- _. auto.
  - destruct F as (-> & Wr & Wm & Rd & x & Hx & Hn). destruct (now_inv h s N) as (A & B & Sf). assert (L2 := hqp_two _ _ _ _ _ _ _ _ _ _ _ D).
    assert (Hx' : nth_error (f_objs s) o = Some x) by (rewrite (d_objs _ _ _ _ _ _ _ _ _ _ _ D); exact Hx).
    destruct (add_contact_total s o wreg wmot 1 x A (is_cells _ (proj1 Sf)) Hx') as (s' & E & _); [lia|].
    destruct (add_contact_items s o x _ _ 1 s' true _ _ A (d_items _ _ _ _ _ _ _ _ _ _ _ D) Hx' E) as (_ & I1 & I2 & I3 & I4).
    assert (Es : step s (OAddContact o wreg wmot 1) = Ret s' (OutBool true)) by (cbn [Formulation.step]; rewrite E; reflexivity).
    assert (U : soft_use dbg asc0 s (OAddContact o wreg wmot 1)).
    { apply (Use _ _ Es I (conj eq_refl (conj Wr Wm))).
      - cbn. rewrite Hx'. rewrite names_objs, (d_objs _ _ _ _ _ _ _ _ _ _ _ D), (d_cs _ _ _ _ _ _ _ _ _ _ _ D). exact Hn.
      - cbn. split; [apply nth_error_Some; congruence|exact (eq_ind_r (fun n => 1 < n) (le_n 2) L2)]. }
    cbn [next] in *. rewrite Hx in *. eapply Fin; [exact Es|exact I| |exact U|cbn [next sh_book]; destruct (sh_book h) as [[[[? ?] ?] ?] ?]; reflexivity|exact Nn|].
    + eapply desc_step; [exact D|split; [apply U|split; exact I]|exact Es|..].
      * rewrite I3. apply (d_objs _ _ _ _ _ _ _ _ _ _ _ D).
      * rewrite I4. exact T.
      * rewrite I2, (d_cs _ _ _ _ _ _ _ _ _ _ _ D). reflexivity.
      * exact I1.
    + cbn [sh_read]. assert (R0 := n_read _ _ N). rewrite Rd in R0 |- *. apply add_contact_spec in E. destruct E as (_ & y & s2 & q1 & q2 & q3 & _ & Hz & _ & _ & _ & ->).
      apply resize_dec in Hz. destruct Hz as (Hz & _). cbn [f_dec w_k] in Hz. cbn. rewrite <- R0, <- Hz. reflexivity.
  - assert (Ev := now_env h s e N F). destruct (desc_compute dbg alone nv na M0 H0 Hrob _ _ _ _ s t e D Ev (proj1 F)) as (s' & E & D' & _).
    eapply Fin; [exact E|exact I|exact D'| |cbn [next sh_book]; destruct (sh_book h) as [[[[? ?] ?] ?] ?]; reflexivity|exact Nn|].
    + apply (Use _ _ E); [exact (proj1 F)|exact I|exact I|]. cbn. rewrite T. split; [intros _ c Hc; unfold f_trans in T, Hc; rewrite T in Hc; destruct Hc|]. intros s1 X. injection X as <-. apply env_ok_time; exact Ev.
    + exact (compute_not_decoded dbg s t e s' E).
  - destruct (now_nv h s N) as [N1 _]. assert (Wd := now_width h s N). cbn in F.
    assert (Rd : f_dec s = true -> vlen (f_f s) = f_k s). { intros X. assert (R0 := n_read _ _ N). destruct (sh_read h); [apply R0|congruence]. }
    assert (Op : op_ok dbg s (OGet g x)). { cbn. rewrite N1, Wd, F. split; [lia|]. destruct g; try exact I. rewrite <- Wd. exact Rd. }
    destruct (desc_get dbg alone nv na M0 H0 Hrob _ _ _ _ s g x D Op) as (s' & r & E & D').
    eapply Fin; [exact E|exact I|exact D'|apply (Use _ _ E I I I Op)|cbn [next sh_book]; destruct (sh_book h) as [[[[? ?] ?] ?] ?]; reflexivity|exact Nn|].
    cbn [next sh_read]. apply (decode_read s s' x); [rewrite Wd, F; lia|exact Rd|]. cbn [Formulation.step] in E. unfold lift, get in E. destruct (decode s x) as [s1|]; [|discriminate E].
    destruct g; try (injection E as <- _; reflexivity). destruct (find_contact s1 name) as [cl|]; [|injection E as <- _; reflexivity]. destruct (vsegment _ _ _); [|discriminate E]. injection E as <- _; reflexivity.
Qed.
(** Whole programs. *)
Fixpoint all_fit (h : sheet) (l : list (fop Rnum)) : Prop := match l with [] => True | o :: l' => fits h o /\ all_fit (next h o) l' end.
Theorem now_calls l : forall h s, now h s -> all_fit h l -> exists s', calls dbg s l = Some s' /\ now (fold_left next l h) s'.
Proof.
  induction l as [|o l IH]; intros h s N F; [exists s; auto|]. destruct F as [F F']. destruct (now_step h s o N F) as (s1 & r & E & N1).
  destruct (IH _ _ N1 F') as (s' & C & N'). exists s'. cbn [calls fold_left]. rewrite E. auto.
Qed.
(** One period. *)
Theorem now_period h s t e : now h s -> data_fits h e -> exists s', step s (Formulation.OCompute t e) = Ret s' OutUnit /\ now (next h (Formulation.OCompute t e)) s' /\
  assoc_good dbg asc0 s (Formulation.OCompute t e).
Proof.
  intros N F. destruct (now_step h s (Formulation.OCompute t e) N F) as (s' & r & E & N'). assert (Ev := now_env h s e N F).
  destruct (desc_compute dbg alone nv na M0 H0 Hrob _ _ _ _ s t e (n_desc _ _ N) Ev (proj1 F)) as (s2 & E2 & _). rewrite E in E2. injection E2 as -> ->.
  exists s2. split; [exact E|]. split; [exact N'|]. assert (T := d_trans _ _ _ _ _ _ _ _ _ _ _ (n_desc _ _ N)).
  split; [split; [exact I|]|exact (proj1 F)]. cbn. rewrite T. split; [intros _ c Hc; unfold f_trans in T, Hc; rewrite T in Hc; destruct Hc|]. intros s1 X. injection X as <-. apply env_ok_time; exact Ev.
Qed.
(** Answers of a period. *)
Theorem now_answer h s t e tau : now h s -> data_fits h e -> RobotModelR.posdef nv (mget (e_mass e)) ->
  (forall o x, In o (sh_cs h) -> nth_error (sh_objs h) o = Some x -> let '(B, lb, ub) := e_cforce e o (co_fmin x) (co_fmax x) in exists f, in_holds B lb ub f) ->
  (forall id n, In (id, n, 0) (snd (fst (fst (sh_book h)))) -> sat (e_task e id) tau) ->
  exists s' y, step s (Formulation.OCompute t e) = Ret s' OutUnit /\ vlen y = nv + width h /\ planned dbg nv na M0 H0 asc0 e s' reg8 y.
Proof.
  intros N F PD Hf Ha. destruct (now_period h s t e N F) as (s' & E & N' & G). exists s'.
  destruct (soft_sized dbg nv na M0 H0 asc0 s t e s' tau Hrob (n_soft _ _ N) G E PD) as (_ & y & L & P).
  - intros c x Hc Hx. apply Hf; [exact (now_contact _ s' c N' Hc)|]. rewrite (d_objs _ _ _ _ _ _ _ _ _ _ _ (n_desc _ _ N')) in Hx. exact Hx.
  - intros q Hq Hp. assert (Bk := n_book _ _ N'). cbn [next sh_book] in Bk. destruct (sh_book h) as [[[[m f] a] x] z]. unfold book in Bk. injection Bk as _ _ Ba _ _. cbn [fst snd] in Ha.
    apply (Ha _ (tl_name q)). rewrite <- Ba. apply (in_map entry_of) in Hq. unfold entry_of in Hq at 1. rewrite Hp in Hq. exact Hq.
  - exists y. split; [exact E|]. split; [|exact P]. rewrite L. unfold nVar. rewrite (proj1 (now_nv _ _ N')), (now_width _ _ N'). reflexivity.
Qed.
(** Where the forces of each contact are among the variables: object, first variable, size. *)
Fixpoint placed (a : nat) (l : list (nat * nat)) : list (nat * nat * nat) := match l with [] => [] | (o, n) :: l' => (o, a, n) :: placed (a + n) l' end.
Definition places (h : sheet) : list (nat * nat * nat) := placed 0 (map (fun o => (o, nforce (sh_objs h) o)) (sh_cs h)).
Lemma now_placed h s : now h s -> map (fun c => (cl_obj c, cl_index c, cl_nforce s c)) (f_contacts s) = places h.
Proof.
  intros N. destruct (now_inv h s N) as (A & _). assert (T := ia_tile _ A). unfold slots in T. unfold places.
  rewrite <- (d_cs _ _ _ _ _ _ _ _ _ _ _ (n_desc _ _ N)), <- (d_objs _ _ _ _ _ _ _ _ _ _ _ (n_desc _ _ N)). unfold contact_objs. rewrite map_map.
  change (fun x => (cl_obj x, nforce (f_objs s) (cl_obj x))) with (fun c => (cl_obj c, cl_nforce s c)). revert T. generalize (f_k s) as k. generalize 0 as a. clear.
  induction (f_contacts s) as [|c l IH]; intros a k T; [reflexivity|]. cbn [map tiles placed] in *. destruct T as [T1 T2]. rewrite T1. f_equal. exact (IH _ _ T2).
Qed.
(** Torque that the variables [y] need on row [i]. *)
Definition effort (h : sheet) (e : env Rnum) (y : nat -> R) (i : nat) : R :=
  (@nsum Rnum nv (fun j => mget (e_mass e) i j * y j) + vget (e_nle e) i - lsum (fun '(o, a, n) => @nsum Rnum n (fun r => jac e o r i * y (nv + a + r)%nat)) (places h))%R.
Lemma now_effort h s e y i : now h s -> needed_torque s e y i = effort h e y i.
Proof.
  intros N. unfold needed_torque, effort, meas_torque, contact_torque. destruct (now_nv h s N) as [N1 _]. rewrite N1, <- (now_placed h s N).
  assert (Bk := n_book _ _ N). destruct (n_none _ _ N) as (_ & Z2 & _). destruct (sh_book h) as [[[[m f] a] x] z]. cbn [fst snd] in Z2. subst x. unfold book in Bk. injection Bk as _ _ _ Bx _.
  rewrite Bx. unfold lsum. rewrite map_map. unfold force_of. rewrite N1. cbn [map fold_right]. lra.
Qed.
(** What every answer of an exact solver means. *)
Record obeyed (h : sheet) (e : env Rnum) (y : nat -> R) : Prop := mkObeyed {
  ob_base : forall i, i < nv - na -> effort h e y i = 0%R;
  ob_force : forall o a n x, In (o, a, n) (places h) -> nth_error (sh_objs h) o = Some x ->
    let '(B, lb, ub) := e_cforce e o (co_fmin x) (co_fmax x) in in_holds B lb ub (fun r => y (nv + a + r));
  ob_act : forall id n, In (id, n, 0) (snd (fst (fst (sh_book h)))) -> sat (e_task e id) (fun q => effort h e y ((nv - na) + q)) }.
Lemma sat_ext c (u v : nat -> R) : (forall i, u i = v i) -> sat c u -> sat c v.
Proof.
  intros H. unfold sat, lhs. destruct (c_kind c); intros S i Hi; specialize (S i Hi); try (rewrite <- H; exact S); erewrite (rsum_ext _ _ (fun j => mget (c_mat c) i j * u j)%R); try exact S; intros j _; rewrite H; reflexivity.
Qed.
Theorem now_obeyed h s t e s' r y : now h s -> data_fits h e -> step s (Formulation.OCompute t e) = Ret s' OutUnit -> planned dbg nv na M0 H0 asc0 e s' r y -> obeyed h e (vget y).
Proof.
  intros N F E P. destruct (now_period h s t e N F) as (s2 & E2 & N' & _). rewrite E in E2. injection E2 as <-.
  destruct (plan_best _ _ _ _ _ _ _ _ _ _ P) as [Ph _]. destruct (now_nv _ _ N') as [N1 N2].
  assert (Ef : forall i, needed_torque s' e (vget y) i = effort h e (vget y) i) by (intros i; exact (now_effort _ s' e (vget y) i N')).
  constructor.
  - intros i Hi. rewrite <- Ef. apply (ph_base _ _ _ Ph). rewrite N2. exact Hi.
  - intros o a n x Hi Hx. assert (Hp := now_placed _ _ N'). change (places (next h (Formulation.OCompute t e))) with (places h) in Hp. rewrite <- Hp in Hi.
    apply in_map_iff in Hi. destruct Hi as (c & Ec & Hc). injection Ec as <- <- <-.
    assert (Q := ph_force _ _ _ Ph c x Hc). rewrite (d_objs _ _ _ _ _ _ _ _ _ _ _ (n_desc _ _ N')) in Q. specialize (Q Hx). destruct (e_cforce e (cl_obj c) (co_fmin x) (co_fmax x)) as [[B lb] ub].
    unfold force_of in Q. rewrite N1 in Q. exact Q.
  - intros id n Hi. assert (Bk := n_book _ _ N'). cbn [next sh_book] in Bk. destruct (sh_book h) as [[[[m f] a] x] z]. unfold book in Bk. injection Bk as _ _ Ba _ _. cbn [fst snd] in Hi.
    rewrite <- Ba in Hi. apply in_map_iff in Hi. destruct Hi as (q & Eq & Hq). unfold entry_of in Eq. injection Eq as <- _ Hl.
    assert (Q := ph_atask _ _ _ Ph q Hq Hl). revert Q. apply sat_ext. intros i. rewrite N2. apply Ef.
Qed.
(** What the getters return after the period, in any order. *)
Theorem now_get h s t e s' y l s1 s2 g v : now h s -> data_fits h e -> step s (Formulation.OCompute t e) = Ret s' OutUnit -> vlen y = nv + width h ->
  gets s' l y = Some s1 -> get s1 g y = Ret s2 v ->
  match g with
  | GTau => vlen v = nv - (nv - na) /\ forall q, q < nv - (nv - na) -> vget v q = effort h e (vget y) ((nv - na) + q)
  | GAcc => vlen v = nv /\ forall j, j < nv -> vget v j = vget y j
  | GForce => vlen v = width h /\ forall r, r < width h -> vget v r = vget y (nv + r)
  | GForceOf n => forall o a k x, In (o, a, k) (places h) -> nth_error (sh_objs h) o = Some x -> n = co_name x -> vlen v = k /\ forall r, r < k -> vget v r = vget y (nv + a + r)
  end.
Proof.
  intros N F E L G1 G2. destruct (now_period h s t e N F) as (s3 & E3 & N' & Ag). rewrite E in E3. injection E3 as <-.
  assert (Rs := soft_assoc dbg _ _ _ (n_soft _ _ N)). destruct (after_facts dbg nv na M0 H0 asc0 s t e s' Hrob Rs Ag E) as (A & B & S & D & Ev & Nd & N1 & N2).
  assert (Ly : vlen y = nVar s') by (unfold nVar; rewrite N1, (now_width _ _ N'); exact L).
  assert (Ra : reach step (fun _ _ => True) (init nv na M0 H0) s) by (eapply reach_weaken; [|exact Rs]; auto).
  assert (Q := getters_decode dbg nv na M0 H0 s t e s' y l g s1 s2 v Ra E Ly G1 G2). destruct g; try exact Q.
  - destruct Q as [Q ->]. destruct (decode_tau s' e A S D y s2 Nd Ly Q) as [T1 T2]. rewrite N1, N2 in *. split; [exact T1|]. intros q Hq. rewrite (T2 q Hq). exact (now_effort _ s' e (vget y) _ N').
  - rewrite (now_width _ _ N') in Q. exact Q.
  - intros o a k x Hi Hx ->. destruct Q as [_ Q]. assert (Hp := now_placed _ _ N'). change (places (next h (Formulation.OCompute t e))) with (places h) in Hp. rewrite <- Hp in Hi.
    apply in_map_iff in Hi. destruct Hi as (c & Ec & Hc). injection Ec as <- <- <-.
    apply Q. replace (co_name x) with (cl_name s' c); [apply FormHist.find_contact_eq; assumption|].
    unfold cl_name, cobj_at. rewrite (d_objs _ _ _ _ _ _ _ _ _ _ _ (n_desc _ _ N')). cbn [next sh_objs]. rewrite Hx. reflexivity.
Qed.
End Sheet.
