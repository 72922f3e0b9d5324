(** Proofs about the biped and the walking loop. *)
From Coq Require Import String List Arith Bool ZArith Lia Permutation.
From Verif Require Import Scalar Outcome Linalg Constraint Formulation ListUtil FormSpec FormInv FormInvB FormInvC FormOps FormSafe FormSafe2 FormContact FormMain FormCheck Walking WalkingSpec.
Import ListNotations.
Open Scope string_scope.
Open Scope list_scope.
Open Scope nat_scope.

Section WalkingP.
Context {K : num}.
Variable dbg : bool.
Local Notation fstate := (fstate K).
Local Notation step := (@Formulation.step K dbg).
Local Notation good := (@FormMain.good K dbg).

(** ** The HQP data without contents *)
Definition items (s : fstate) : list (list (K * option (string * ckind * nat))) :=
  map (map (fun e => (fst e, info s (snd e)))) (f_hqp s).

Lemma items_ext s s' : f_hqp s' = f_hqp s -> (forall e, In e (concat (f_hqp s)) -> info s' (snd e) = info s (snd e)) ->
  items s' = items s.
Proof.
  intros E H. unfold items. rewrite E. apply map_ext_in. intros l Hl. apply map_ext_in. intros e He.
  f_equal. apply H. apply in_concat. eauto.
Qed.
Lemma items_same s s' : same s s' -> items s' = items s.
Proof. intros H. apply items_ext; [apply (sm_hqp _ _ H)|]. intros e _. apply same_info; exact H. Qed.

Lemma map_lupd {A B} (f : A -> B) l i x : map f (lupd l i x) = lupd (map f l) i (f x).
Proof. revert i; induction l as [|a l IH]; intros [|i]; simpl; auto. f_equal. apply IH. Qed.

Lemma items_push s c w lvl hq : valid s -> push_level (f_hqp s) lvl (w, List.length (f_heap s)) = Some hq ->
  exists x, nth_error (items s) lvl = Some x /\
    items (w_hqp (w_heap s (f_heap s ++ [c])) hq) = lupd (items s) lvl (x ++ [(w, Some (fst (shape c)))]).
Proof.
  intros V H. assert (PI := push_info s c hq). apply push_level_spec in H. destruct H as (x & Hx & ->).
  exists (map (fun e => (fst e, info s (snd e))) x). split; [unfold items; rewrite nth_error_map, Hx; reflexivity|].
  unfold items. cbn [f_hqp w_hqp]. rewrite map_lupd, map_app. cbn [map fst snd]. rewrite PI.
  assert (O : forall l, In l (f_hqp s) ->
    map (fun e : K * nat => (fst e, info (w_hqp (w_heap s (f_heap s ++ [c])) (lupd (f_hqp s) lvl (x ++ [(w, List.length (f_heap s))]))) (snd e))) l
    = map (fun e => (fst e, info s (snd e))) l).
  { intros l Hl. apply map_ext_in. intros e He. f_equal. apply info_old.
    unfold valid in V. rewrite Forall_forall in V. apply V. apply in_concat. eauto. }
  rewrite (O x (nth_error_In _ _ Hx)). f_equal. apply map_ext_in. exact O.
Qed.

(** ** Effect of the calls on the items *)
Lemma resize_items s s' : preA s -> resize_hqp s = Some s' -> items s' = items s.
Proof.
  intros P H. apply items_ext; [apply (resize_fields _ _ P H)|]. intros e _. apply (resize_info _ _ P H).
Qed.

Lemma add_task_items s n kd r w lvl s' a : invA s -> lvl < List.length (f_hqp s) ->
  add_task_cstr s n kd r w lvl = Some (s', a) ->
  exists x, nth_error (items s) lvl = Some x /\
    items s' = lupd (items s) lvl (x ++ [(w, Some (n, (if is_eq kd then CEq else CIneq), r))]).
Proof.
  intros HA Hl H. unfold add_task_cstr in H.
  replace (List.length (f_hqp s) <? lvl) with false in H by (symmetry; apply Nat.ltb_ge; lia).
  ob H. injection H as <- <-.
  match goal with E : push_level _ _ _ = Some ?h |- _ => rename h into hq; rename E into P end.
  destruct (items_push s (new_task_cstr n kd r (f_nv s + f_k s)) w lvl hq (invA_valid _ HA) P) as (x & Hx & E).
  exists x. split; [exact Hx|].
  transitivity (items (w_hqp (w_heap s (f_heap s ++ [new_task_cstr n kd r (f_nv s + f_k s)])) hq)).
  - apply items_ext; destruct kd, (lvl =? 0); reflexivity.
  - rewrite E. do 3 f_equal. destruct kd; reflexivity.
Qed.

Lemma add_contact_items s o x wr wm lvl s' b q0 q1 : invA s -> items s = [q0; q1] -> nth_error (f_objs s) o = Some x ->
  add_contact s o wr wm lvl = Ret s' b ->
  let m := (wm, Some ((co_name x ++ "_motion_task")%string, CEq, co_mrows x)) in
  let f := (n1, Some ((co_name x ++ "_force_constraint")%string, CIneq, co_frows x)) in
  let r := (wr, Some ((co_name x ++ "_force_reg_task")%string, CEq, co_rrows x)) in
  lvl < 2 /\
  items s' = [q0 ++ (if lvl =? 0 then [m] else []) ++ [f]; q1 ++ (if lvl =? 0 then [] else [m]) ++ [r]] /\
  contact_objs s' = contact_objs s ++ [o] /\ f_objs s' = f_objs s /\ f_trans s' = f_trans s.
Proof.
  intros HA Hq Ho H m f r. destruct (add_contact_spec _ _ _ _ _ _ _ H) as (_ & y & s1 & a1 & a2 & a3 & Ey & Hz & P1 & P2 & P3 & Es).
  rewrite Ho in Ey. injection Ey as <-.
  assert (HP : preA (w_k s (f_k s + co_nforce x))) by (destruct (invA_preA _ HA); constructor; auto).
  assert (I1 : items s1 = [q0; q1]).
  { rewrite (resize_items _ _ HP Hz). rewrite <- Hq. reflexivity. }
  destruct (resize_fields _ _ HP Hz) as (F1 & F2 & F3 & F4 & F5 & F6 & F7 & F8 & F9 & F10).
  destruct (resize_rdata _ _ Hz) as (_ & T1 & _).
  assert (V1 : valid s1).
  { unfold valid. rewrite F1, F6. exact (invA_valid _ HA). }
  assert (L1 : List.length (f_hqp s1) = 2) by (rewrite <- (map_length (map (fun e => (fst e, info s1 (snd e))))); fold (items s1); rewrite I1; reflexivity).
  set (cm := new_eq (co_name x ++ "_motion_task")%string (co_mrows x) (nVar s1) : constr K) in *.
  set (cf := new_ineq (co_name x ++ "_force_constraint")%string (co_frows x) (nVar s1) : constr K) in *.
  set (cr := new_eq (co_name x ++ "_force_reg_task")%string (co_rrows x) (nVar s1) : constr K) in *.
  set (s2 := w_hqp (w_heap s1 (f_heap s1 ++ [cm])) a1).
  set (s3 := w_hqp (w_heap s2 (f_heap s2 ++ [cf])) a2).
  set (s4 := w_hqp (w_heap s3 (f_heap s3 ++ [cr])) a3).
  assert (Lvl : lvl < 2).
  { rewrite <- L1. apply nth_error_Some. unfold push_level in P1. destruct (nth_error _ lvl); [congruence|discriminate]. }
  destruct (items_push s1 cm wm lvl a1 V1 P1) as (x1 & N1 & E1).
  assert (V2 : valid s2) by (apply (push_valid s1 cm wm lvl a1 P1 V1)).
  assert (P2' : push_level (f_hqp s2) 0 (n1, List.length (f_heap s2)) = Some a2).
  { cbn. rewrite app_length, Nat.add_1_r. exact P2. }
  destruct (items_push s2 cf n1 0 a2 V2 P2') as (x2 & N2 & E2).
  assert (V3 : valid s3) by (apply (push_valid s2 cf n1 0 a2 P2' V2)).
  assert (P3' : push_level (f_hqp s3) 1 (wr, List.length (f_heap s3)) = Some a3).
  { cbn. rewrite !app_length, !Nat.add_1_r. exact P3. }
  destruct (items_push s3 cr wr 1 a3 V3 P3') as (x3 & N3 & E3).
  split; [exact Lvl|]. split.
  - transitivity (items s4).
    + apply items_ext; rewrite Es; [reflexivity|]. intros e _. unfold info, shapes. cbn. rewrite <- !app_assoc. reflexivity.
    + unfold s4. rewrite E3. fold s2 in E1. fold s3 in E2.
      rewrite E2 in N3 |- *. rewrite E1 in N2, N3 |- *. rewrite I1 in N1, N2, N3 |- *.
      destruct lvl as [|[|lvl]]; [| |lia]; cbn in N1; injection N1 as <-; cbn in N2; injection N2 as <-;
        cbn in N3; injection N3 as <-; cbn; rewrite <- ?app_assoc; reflexivity.
  - rewrite Es. unfold contact_objs. cbn. rewrite map_app. split; [reflexivity|]. split; [exact F5|exact T1].
Qed.

Lemma remove_items s n s' b : invA s -> invB s -> In n (contact_names s) ->
  remove_contact_now dbg s n = Ret s' b ->
  items s' = map (filter (fun e => match snd e with Some x => not3 n (fst (fst x)) | None => true end)) (items s) /\
  contact_objs s' = map cl_obj (cflt s n (f_contacts s)) /\ f_objs s' = f_objs s /\ f_trans s' = f_trans s.
Proof.
  intros HA HB Hn H. destruct (remove_present dbg _ _ _ _ HA HB Hn H) as (c & s4 & q & i & _ & _ & Hz & -> & _).
  match type of Hz with resize_hqp ?z = _ => set (s3 := z) in * end.
  assert (HP : preA s3).
  { destruct (invA_preA _ HA) as [Pb Pk Pa]. constructor; auto. unfold s3. cbn.
    rewrite Forall_forall in Pa |- *. intros e He. apply Pa.
    rewrite concat_map_filter in He. apply filter_In in He. apply He. }
  destruct (resize_fields _ _ HP Hz) as (F1 & F2 & F3 & F4 & F5 & F6 & F7 & F8 & F9 & F10).
  destruct (resize_rdata _ _ Hz) as (_ & T1 & _).
  split; [|split; [|split]].
  - transitivity (items s4); [reflexivity|]. rewrite (resize_items _ _ HP Hz). unfold items, s3. cbn.
    rewrite !map_map. apply map_ext_in. intros l Hl.
    assert (V := invA_valid _ HA). unfold valid in V. rewrite Forall_forall in V.
    assert (VL : forall e, In e l -> snd e < List.length (f_heap s)) by (intros e He; apply V; apply in_concat; eauto).
    transitivity (map (fun e => (fst e, info s (snd e))) (filter (fun e => not3 n (nm s e)) l)); [reflexivity|].
    clear - VL. induction l as [|e l IH]; [reflexivity|].
    assert (Ve := VL e (or_introl eq_refl)). specialize (IH (fun x Hx => VL x (or_intror Hx))).
    cbn [filter map]. destruct (info_valid s (snd e) Ve) as ([[m kd] r] & Ei).
    cbn [fst snd]. rewrite Ei. cbn [fst snd]. unfold nm at 1. rewrite (info_name _ _ _ _ _ Ei).
    destruct (not3 n m); cbn [map fst snd]; rewrite IH; [|reflexivity].
    rewrite Ei. reflexivity.
  - unfold contact_objs. cbn. apply reindex_shape. reflexivity.
  - exact F5.
  - exact T1.
Qed.

(** Shapes of the HQP data from its items. *)
Lemma shapes_items s : invA s ->
  hqp_shapes s = map (map (fun x => (fst x, option_map (fun i => (i, nVar s)) (snd x)))) (items s).
Proof.
  intros HA. unfold hqp_shapes, hqp, items. rewrite !map_map. apply map_ext_in. intros l Hl.
  rewrite !map_map. apply map_ext_in. intros e He. unfold deref. cbn [fst snd]. f_equal.
  assert (HC := ia_cols _ HA). rewrite Forall_forall in HC. destruct (HC e) as (m & kd & r & E); [apply in_concat; eauto|].
  unfold info. rewrite E. cbn. unfold shapes in E. rewrite nth_error_map in E.
  destruct (nth_error (f_heap s) (snd e)) as [c|]; [|discriminate]. cbn in *. exact E.
Qed.

(** ** Descriptions of a state and the effect of each call on them *)
Variables (Pe : env K -> Prop) (nv na : nat) (M0 : mat K) (H0 : vec K).
Hypothesis Hrob : robot_ok nv M0 H0.

(** [Pe]: any condition on the data given to computeProblemData, kept along. *)
Definition seen (o : fop K) : Prop := match o with OCompute _ e => Pe e | _ => True end.
Definition legal (s : fstate) (o : fop K) : Prop := good s o /\ no_hard_force_removal s o /\ seen o.
Notation item := (K * option (string * ckind * nat))%type.
Definition lab (x : K * (string * ckind * nat)) : item := (fst x, Some (snd x)).

Record desc (objs : list (cobj K)) (cs : list nat) (q0 q1 : list item) (s : fstate) : Prop := mkDesc {
  d_hist : reach step legal (init nv na M0 H0) s;
  d_objs : f_objs s = objs;
  d_trans : f_trans s = [];
  d_cs : contact_objs s = cs;
  d_items : items s = [q0; q1] }.

Lemma legal_good s : reach step legal (init nv na M0 H0) s -> reach step good (init nv na M0 H0) s.
Proof. apply reach_weaken. intros ? ? [H _]; exact H. Qed.
Lemma desc_inv objs cs q0 q1 s : desc objs cs q0 q1 s -> invA s /\ invB s /\ safe s.
Proof. intros D. destruct Hrob as (R1 & R2 & R3). exact (safe_reach dbg nv na M0 H0 s R1 R2 R3 (legal_good s (d_hist _ _ _ _ _ D))). Qed.
Lemma desc_step objs cs q0 q1 s o s' r objs' cs' q0' q1' : desc objs cs q0 q1 s -> legal s o -> step s o = Ret s' r ->
  f_objs s' = objs' -> f_trans s' = [] -> contact_objs s' = cs' -> items s' = [q0'; q1'] -> desc objs' cs' q0' q1' s'.
Proof.
  intros D L E F1 F2 F3 F4. constructor; auto. eapply reach_step; [exact (d_hist _ _ _ _ _ D)|exact L|]. rewrite E. reflexivity.
Qed.
Lemma hqp_two objs cs q0 q1 s : desc objs cs q0 q1 s -> List.length (f_hqp s) = 2.
Proof.
  intros D. assert (E := f_equal (@List.length _) (d_items _ _ _ _ _ D)). unfold items in E. rewrite map_length in E. exact E.
Qed.

Definition iname (x : item) : string := match snd x with Some i => fst (fst i) | None => "" end.
Lemma names_items s : valid s -> hqp_names s = map iname (concat (items s)).
Proof.
  intros V. unfold hqp_names, items. rewrite !concat_map, map_map.
  f_equal. apply map_ext_in. intros l Hl. rewrite map_map. apply map_ext_in. intros e He.
  unfold iname. cbn [snd]. unfold valid in V. rewrite Forall_forall in V.
  destruct (info_valid s (snd e)) as ([[m kd] r] & Ei); [apply V; apply in_concat; eauto|].
  rewrite Ei. cbn. eapply info_name; exact Ei.
Qed.

Definition oname (objs : list (cobj K)) (o : nat) : string := match nth_error objs o with Some x => co_name x | None => "" end.
Lemma names_objs s : contact_names s = map (oname (f_objs s)) (contact_objs s).
Proof. unfold contact_names, contact_objs. rewrite map_map. reflexivity. Qed.

Lemma desc_init : desc [] [] [(n1, Some ("base-dynamics", CEq, nv - na))] [] (init nv na M0 H0).
Proof. constructor; try reflexivity. constructor. Qed.

Lemma desc_new objs cs q0 q1 s x : desc objs cs q0 q1 s ->
  exists s' r, step s (ONewContact x) = Ret s' r /\ desc (objs ++ [x]) cs q0 q1 s' /\
    s' = w_objs s (f_objs s ++ [x]).
Proof.
  intros D. eexists _, _. split; [reflexivity|]. split; [|reflexivity].
  eapply desc_step with (o := ONewContact x); [exact D| |reflexivity|..].
  - repeat split.
  - cbn. rewrite (d_objs _ _ _ _ _ D). reflexivity.
  - apply (d_trans _ _ _ _ _ D).
  - apply (d_cs _ _ _ _ _ D).
  - apply (d_items _ _ _ _ _ D).
Qed.

Lemma env_ok_time (s : fstate) (t : K) (e : env K) : env_ok s e -> env_ok (w_t s t) e.
Proof.
  unfold env_ok. intros (E1 & E2 & E3 & E4 & E5 & E6 & E7 & E8). repeat (split; [assumption|]). split; [|assumption].
  intros u kd r Hu Ha. assert (F : force_size (w_t s t) (e_assoc e (tl_task u)) = force_size s (e_assoc e (tl_task u))).
  { unfold force_size. f_equal. apply force_slot_eq; reflexivity. }
  rewrite F. exact (E7 u kd r Hu Ha).
Qed.

Lemma desc_compute objs cs q0 q1 s t e : desc objs cs q0 q1 s -> env_ok s e -> Pe e ->
  exists s', step s (OCompute t e) = Ret s' OutUnit /\ desc objs cs q0 q1 s' /\
    same s s' /\ f_meas s' = f_meas s.
Proof.
  intros D He Hp. destruct (desc_inv _ _ _ _ _ D) as (HA & HB & HS & HT).
  assert (T := d_trans _ _ _ _ _ D).
  assert (A1 : invA (w_t s t)) by (destruct HA; constructor; auto).
  assert (B1 : invB (w_t s t)) by (destruct HB; constructor; auto).
  assert (S1 : invS (w_t s t)) by (destruct HS; constructor; auto).
  assert (He' := env_ok_time s t e He).
  destruct (comp_fill_total (w_t s t) e A1 B1 S1 He') as (s' & E & _).
  assert (Es : step s (OCompute t e) = Ret s' OutUnit).
  { cbn [Formulation.step]. unfold compute. cbv zeta. change (f_trans (w_t s t)) with (f_trans s). rewrite T.
    cbn [run_transitions]. rewrite E. reflexivity. }
  assert (Sm0 := comp_fill_same _ _ _ E).
  assert (Sm : same s s') by (destruct Sm0; constructor; auto).
  destruct (comp_fill_trans _ _ _ E) as (F1 & F2). assert (Fr := comp_fill_frame _ _ _ E).
  exists s'. split; [exact Es|]. split; [|split; [exact Sm|rewrite Fr; reflexivity]].
  eapply desc_step; [exact D| |exact Es|..].
  - split; [split; [exact I|]|split; [exact I|exact Hp]]. cbn. split.
    + intros _ c Hc. rewrite T in Hc. contradiction.
    + intros s1. rewrite T. cbn. intros X. injection X as <-. exact He'.
  - rewrite F2. apply (d_objs _ _ _ _ _ D).
  - rewrite F1. exact T.
  - unfold contact_objs. rewrite (sm_con _ _ Sm). apply (d_cs _ _ _ _ _ D).
  - rewrite (items_same _ _ Sm). apply (d_items _ _ _ _ _ D).
Qed.

Lemma desc_get objs cs q0 q1 s g x : desc objs cs q0 q1 s -> op_ok dbg s (OGet g x) ->
  exists s' r, step s (OGet g x) = Ret s' r /\ desc objs cs q0 q1 s'.
Proof.
  intros D Ho. assert (U := never_undefined dbg nv na M0 H0 s (OGet g x) Hrob (legal_good s (d_hist _ _ _ _ _ D)) Ho).
  assert (G : exists s' v, get s g x = Ret s' v /\ decode s x = Some s').
  { cbn [Formulation.step] in U. unfold get in *. destruct (decode s x) as [s'|]; [|exfalso; apply U; reflexivity].
    destruct g; eauto. destruct (find_contact s' name) as [cl|]; eauto.
    destruct (vsegment _ _ _); eauto. exfalso; apply U; reflexivity. }
  destruct G as (s' & v & G & Ed). assert (Sm := decode_same _ _ _ Ed).
  assert (F : f_objs s' = f_objs s /\ f_trans s' = f_trans s).
  { unfold decode in Ed. destruct (f_dec s); [injection Ed as <-; auto|]. repeat (ob Ed). injection Ed as <-. auto. }
  destruct F as (F1 & F2).
  assert (Es : step s (OGet g x) = Ret s' (OutVec v)) by (cbn [Formulation.step]; rewrite G; reflexivity).
  exists s', (OutVec v). split; [exact Es|]. eapply desc_step; [exact D| |exact Es|..].
  - split; [split; [exact I|exact Ho]|split; exact I].
  - rewrite F1. apply (d_objs _ _ _ _ _ D).
  - rewrite F2. apply (d_trans _ _ _ _ _ D).
  - unfold contact_objs. rewrite (sm_con _ _ Sm). apply (d_cs _ _ _ _ _ D).
  - rewrite (items_same _ _ Sm). apply (d_items _ _ _ _ _ D).
Qed.

(** The three ways to add a task. *)
Inductive tcall (n : string) (kd : ckind) (r : nat) (w : K) (lvl : nat) (d : K) : fop K -> Prop :=
| tcall_m i : tcall n kd r w lvl d (OAddMotion i n kd r w lvl d)
| tcall_f i : tcall n kd r w lvl d (OAddForce i n kd r w lvl d)
| tcall_a i : tcall n kd r w lvl d (OAddAct i n kd r w lvl d).

Lemma desc_task objs cs q0 q1 s n kd r w lvl d o : desc objs cs q0 q1 s -> tcall n kd r w lvl d o ->
  (n0 <=? w)%num = true -> (n0 <=? d)%num = true -> lvl < 2 ->
  reservedb n = false -> existsb (String.eqb n) (map iname (q0 ++ q1)) = false ->
  let x := (w, Some (n, (if is_eq kd then CEq else CIneq), r)) in
  exists s' b, step s o = Ret s' b /\
    desc objs cs (if lvl =? 0 then q0 ++ [x] else q0) (if lvl =? 0 then q1 else q1 ++ [x]) s'.
Proof.
  intros D Ht Hw Hd Hl Hr Hn x. destruct (desc_inv _ _ _ _ _ D) as (HA & HB & HS).
  assert (L2 := hqp_two _ _ _ _ _ D). assert (Hl' : lvl < List.length (f_hqp s)) by lia.
  destruct (add_task_safe s n kd r w lvl HS Hl') as (s1 & a & E & _).
  destruct (add_task_items s n kd r w lvl s1 a HA Hl' E) as (y & Hy & Ei).
  assert (F : f_objs s1 = f_objs s /\ f_trans s1 = f_trans s /\ f_contacts s1 = f_contacts s).
  { apply add_task_cstr_spec in E. destruct E as (? & ? & ? & _ & _ & _ & _ & _ & ->).
    destruct (lvl =? 0); [destruct (is_eq kd)|]; auto. }
  destruct F as (F1 & F2 & F3).
  assert (Ao : args_ok w d = true) by (unfold args_ok; rewrite Hw, Hd; reflexivity).
  assert (Lg : legal s o).
  { assert (N1 : ~ reserved n) by (apply reservedb_ok; exact Hr).
    assert (N2 : ~ In n (hqp_names s)).
    { rewrite (names_items s (invA_valid _ HA)), (d_items _ _ _ _ _ D). cbn [concat]. rewrite app_nil_r. apply inb_ok. exact Hn. }
    destruct Ht; (split; [split; [split; assumption|exact Hl']|split; exact I]). }
  assert (It : items s1 = [if lvl =? 0 then q0 ++ [x] else q0; if lvl =? 0 then q1 else q1 ++ [x]]).
  { rewrite Ei. rewrite (d_items _ _ _ _ _ D) in Hy |- *.
    destruct lvl as [|[|lvl]]; [| |lia]; cbn in Hy; injection Hy as <-; reflexivity. }
  assert (St : exists s', step s o = Ret s' (OutBool true) /\ f_objs s' = f_objs s1 /\ f_trans s' = f_trans s1 /\
                f_contacts s' = f_contacts s1 /\ items s' = items s1).
  { destruct Ht; cbn [Formulation.step]; unfold add_motion, add_force, add_act; rewrite Ao, E; eexists; repeat split. }
  destruct St as (s' & Es & G1 & G2 & G3 & G4).
  exists s', (OutBool true). split; [exact Es|]. eapply desc_step; [exact D|exact Lg|exact Es|..].
  - rewrite G1, F1. apply (d_objs _ _ _ _ _ D).
  - rewrite G2, F2. apply (d_trans _ _ _ _ _ D).
  - unfold contact_objs. rewrite G3, F3. apply (d_cs _ _ _ _ _ D).
  - rewrite G4. exact It.
Qed.

(** Adding an object, whether or not it is there already. *)
Definition hard_of (C : conf K) (f : string) : list item := map lab (foot_hard C f).
Definition soft_of (C : conf K) (f : string) : list item := map lab (foot_soft C f).
Definition is_six (x : cobj K) (n : string) : Prop :=
  co_name x = n /\ co_nforce x = 12 /\ co_mrows x = 6 /\ co_frows x = 17 /\ co_rrows x = 6.

Lemma foot_step objs cs q0 q1 s C o x n : desc objs cs q0 q1 s -> nth_error objs o = Some x -> is_six x n ->
  exists s' r, step s (add_foot C o) = Ret s' r /\
    f_objs s' = objs /\ f_trans s' = [] /\ contact_objs s' = cs ++ [o] /\
    items s' = [q0 ++ hard_of C n; q1 ++ soft_of C n].
Proof.
  intros D Hx (X1 & X2 & X3 & X4 & X5). destruct (desc_inv _ _ _ _ _ D) as (HA & HB & HS & HT).
  assert (L2 := hqp_two _ _ _ _ _ D). assert (HC := is_cells _ HS).
  rewrite <- (d_objs _ _ _ _ _ D) in Hx.
  unfold add_foot, hard_of, soft_of, foot_hard, foot_soft.
  destruct ((n0 <=? w_contact C)%num); cbn [Formulation.step].
  - destruct (add_contact_total s o (w_forceRef C) (w_contact C) 1 x HA HC Hx) as (s' & E & _); [lia|].
    destruct (add_contact_items s o x _ _ 1 s' true q0 q1 HA (d_items _ _ _ _ _ D) Hx E) as (_ & I1 & I2 & I3 & I4).
    rewrite X1, X3, X4, X5 in I1.
    exists s', (OutBool true). rewrite E. split; [reflexivity|]. rewrite I3, I4, I2, I1.
    rewrite (d_objs _ _ _ _ _ D), (d_trans _ _ _ _ _ D), (d_cs _ _ _ _ _ D). repeat split; auto.
  - destruct (add_contact_total s o (w_forceRef C) n1 0 x HA HC Hx) as (s' & E & _); [lia|].
    destruct (add_contact_items s o x _ _ 0 s' true q0 q1 HA (d_items _ _ _ _ _ D) Hx E) as (_ & I1 & I2 & I3 & I4).
    rewrite X1, X3, X4, X5 in I1.
    exists s', (OutBool true). rewrite E. split; [reflexivity|]. rewrite I3, I4, I2, I1.
    rewrite (d_objs _ _ _ _ _ D), (d_trans _ _ _ _ _ D), (d_cs _ _ _ _ _ D). repeat split; auto.
Qed.

Lemma desc_foot objs cs q0 q1 s C o x n : desc objs cs q0 q1 s -> nth_error objs o = Some x -> is_six x n ->
  ~ In n (map (oname objs) cs) ->
  exists s' r, step s (add_foot C o) = Ret s' r /\ desc objs (cs ++ [o]) (q0 ++ hard_of C n) (q1 ++ soft_of C n) s'.
Proof.
  intros D Hx Hsix Hn. destruct (foot_step objs cs q0 q1 s C o x n D Hx Hsix) as (s' & r & E & F1 & F2 & F3 & F4).
  exists s', r. split; [exact E|]. eapply desc_step; [exact D| |exact E|assumption..].
  assert (No : ~ In (co_name x) (contact_names s)).
  { rewrite names_objs, (d_objs _ _ _ _ _ D), (d_cs _ _ _ _ _ D), (proj1 Hsix). exact Hn. }
  assert (Lo : o < List.length (f_objs s)) by (apply nth_error_Some; rewrite (d_objs _ _ _ _ _ D); congruence).
  assert (L2 := hqp_two _ _ _ _ _ D).
  unfold add_foot. destruct ((n0 <=? w_contact C)%num); (split; [split|split; exact I]); cbn;
    rewrite ?(d_objs _ _ _ _ _ D), ?Hx; rewrite (d_objs _ _ _ _ _ D) in Lo; auto; split; auto; lia.
Qed.

Definition keeps (n : string) (x : item) : bool :=
  match snd x with Some i => not3 n (fst (fst i)) | None => true end.
Lemma desc_remove objs cs q0 q1 s n T : desc objs cs q0 q1 s -> In n (map (oname objs) cs) -> (n0 <? T)%num = false ->
  exists s' r, step s (ORemContact n T) = Ret s' r /\
    desc objs (filter (fun o => negb (String.eqb (oname objs o) n)) cs) (filter (keeps n) q0) (filter (keeps n) q1) s'.
Proof.
  intros D Hn HT. destruct (desc_inv _ _ _ _ _ D) as (HA & HB & HS & _).
  assert (Hn' : In n (contact_names s)) by (rewrite names_objs, (d_objs _ _ _ _ _ D), (d_cs _ _ _ _ _ D); exact Hn).
  destruct (remove_now_total dbg s n HA HB (is_cells _ HS) Hn') as (s' & E & _).
  destruct (remove_items s n s' true HA HB Hn' E) as (I1 & I2 & I3 & I4).
  assert (Es : step s (ORemContact n T) = Ret s' (OutBool true)).
  { cbn [Formulation.step]. unfold remove_contact. rewrite HT, E. reflexivity. }
  exists s', (OutBool true). split; [exact Es|]. eapply desc_step; [exact D| |exact Es|..].
  - split; [split; [exact I|]|split; exact I]. cbn. intros _ _. exact Hn'.
  - rewrite I3. apply (d_objs _ _ _ _ _ D).
  - rewrite I4. apply (d_trans _ _ _ _ _ D).
  - rewrite I2, <- (d_cs _ _ _ _ _ D). unfold contact_objs, cflt. rewrite <- (d_objs _ _ _ _ _ D).
    clear. induction (f_contacts s) as [|c l IH]; [reflexivity|]. cbn [filter map].
    change (oname (f_objs s) (cl_obj c)) with (cl_name s c).
    destruct (negb (String.eqb (cl_name s c) n)); cbn [map]; rewrite IH; reflexivity.
  - rewrite I1, (d_items _ _ _ _ _ D). reflexivity.
Qed.
End WalkingP.
