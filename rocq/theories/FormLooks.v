(** Structure of a formulation without contacts and removals: what computeProblemData, the add
    calls and the getters leave behind. *)
From Coq Require Import String List Arith Bool ZArith Reals Lia Lra.
From Verif Require Import Scalar Outcome Linalg Constraint Formulation ListUtil FormSpec FormDataSpec FormPhysSpec RSum FormInv FormInvB FormSafe FormSafe2 FormDecode FormHist FormPhys FormCheck FormMain FormSolver JointProgram.
Import ListNotations.
Open Scope string_scope.
Open Scope list_scope.
Open Scope nat_scope.
Local Notation asc := (fun _ : nat => "").
Local Notation cell := (string * ckind * nat * nat)%type.

Section Looks.
Variables (dbg : bool) (nv : nat) (M0 : mat Rnum) (H0 : vec Rnum).
Local Notation start := (init nv nv M0 H0).
Local Notation fstep := (@Formulation.step Rnum dbg).
Record looks (f : fstate Rnum) (sh : list cell) (hq : list (list (car Rnum * nat))) (mot acts : list tlevel) : Prop := mkLooks {
  lk_reach : reach fstep (assoc_good dbg asc) start f;
  lk_shapes : shapes f = sh; lk_hqp : f_hqp f = hq; lk_mot : f_motions f = mot; lk_acts : f_acts f = acts;
  lk_for : f_forces f = []; lk_con : f_contacts f = []; lk_meas : f_meas f = []; lk_trans : f_trans f = []; lk_nv : f_nv f = nv; lk_k : f_k f = 0 }.
Hypothesis R0 : FormMain.robot_ok nv M0 H0.
Lemma looks_init : looks start [("base-dynamics", CEq, nv - nv, nv)] [[(1%R : car Rnum, 0)]; []] [] [].
Proof. constructor; try reflexivity. constructor. Qed.
Lemma looks_compute f sh hq mot acts t e : looks f sh hq mot acts -> env_ok f e -> (forall id, e_assoc e id = "") ->
  exists f', fstep f (@Formulation.OCompute Rnum t e) = Ret f' OutUnit /\ assoc_good dbg asc f (@Formulation.OCompute Rnum t e) /\ looks f' sh hq mot acts.
Proof.
  intros [L1 L2 L3 L4 L5 L6 L7 L8 L9 L10 L11] He Ha.
  destruct (compute_next dbg nv M0 H0 f t e R0 L1 L9 He Ha) as (f' & C & G & S & O & T & RR). exists f'. split; [exact C|]. split; [exact G|].
  destruct S as [a1 a2 a3 a4 a5 a6 a7 a8 a9 a10 a11 a12 a13 a14 a15]. constructor; congruence.
Qed.
Lemma looks_get f sh hq mot acts g y : looks f sh hq mot acts -> f_dec f = false -> vlen y = nv -> match g with GForceOf _ => False | _ => True end ->
  exists f' u, fstep f (@OGet Rnum g y) = Ret f' (OutVec u) /\ get f g y = Ret f' u /\ looks f' sh hq mot acts.
Proof.
  intros [L1 L2 L3 L4 L5 L6 L7 L8 L9 L10 L11] Nd Ly Hg. assert (LY : vlen y = nVar f) by (unfold nVar; lia).
  destruct (get_keeps dbg nv M0 H0 f g y R0 L1 LY Hg) as (f' & u & G & GG & RR). exists f', u. split; [exact G|]. split; [exact GG|].
  apply get_answer in GG as [DC _]. destruct (decode_encodes f y f' Nd LY DC) as (_ & _ & F2). constructor; [exact RR|..]; rewrite F2; assumption.
Qed.
Definition names_in (sh : list cell) (hq : list (list (car Rnum * nat))) : list string :=
  map (fun en => match nth_error sh (snd en) with Some (n, _, _, _) => n | None => "" end) (concat hq).
Lemma looks_names f sh hq mot acts : looks f sh hq mot acts -> @hqp_names Rnum f = names_in sh hq.
Proof.
  intros [L1 L2 L3 L4 L5 L6 L7 L8 L9 L10 L11]. unfold hqp_names, names_in. rewrite L3. apply map_ext. intros [w a]. cbn [snd]. unfold name_at. rewrite <- L2. unfold shapes. rewrite nth_error_map.
  destruct (nth_error (f_heap f) a) as [k|]; reflexivity.
Qed.
Definition kind_in (kd : ckind) : ckind := match kd with CEq => CEq | _ => CIneq end.
Lemma looks_add f sh hq mot acts id name kd r (w : car Rnum) lvl l : looks f sh hq mot acts -> reservedb name = false -> existsb (String.eqb name) (names_in sh hq) = false ->
  (0 <= w)%R -> nth_error hq lvl = Some l ->
  let sh' := sh ++ [(name, kind_in kd, r, nv)] in
  let hq' := lupd hq lvl (l ++ [(w, List.length sh)]) in
  let t := mkTl id name lvl (List.length sh) in
  (exists f', fstep f (@OAddMotion Rnum id name kd r w lvl 0%R) = Ret f' (OutBool true) /\ looks f' sh' hq' (mot ++ [t]) acts) /\
  (exists f', fstep f (@OAddAct Rnum id name kd r w lvl 0%R) = Ret f' (OutBool true) /\ looks f' sh' hq' mot (acts ++ [t])).
Proof.
  intros L Hn Hf Hw Hl sh' hq' t. assert (NM := looks_names _ _ _ _ _ L). destruct L as [L1 L2 L3 L4 L5 L6 L7 L8 L9 L10 L11].
  assert (LH : List.length (f_heap f) = List.length sh) by (rewrite <- L2; unfold shapes; rewrite map_length; reflexivity).
  assert (LV : lvl < List.length hq) by (apply nth_error_Some; congruence).
  assert (AO : @args_ok Rnum w 0%R = true) by (unfold args_ok; apply andb_true_intro; split; apply Rleb_true; cbn; lra).
  assert (NF : ~ In name (@hqp_names Rnum f)) by (rewrite NM; apply inb_ok; exact Hf).
  assert (AC : exists f', add_task_cstr f name kd r (w : Rnum) lvl = Some (f', List.length sh) /\ shapes f' = sh' /\ f_hqp f' = hq' /\ f_motions f' = mot /\ f_acts f' = acts /\ f_forces f' = [] /\ f_contacts f' = [] /\ f_meas f' = [] /\ f_trans f' = [] /\ f_nv f' = nv /\ f_k f' = 0).
  { unfold add_task_cstr, push_level. rewrite L3. replace (List.length hq <? lvl) with false by (symmetry; apply Nat.ltb_ge; exact (Nat.lt_le_incl _ _ LV)). rewrite Hl. cbn [obind]. rewrite LH. eexists. split; [reflexivity|].
    assert (SH : shapes (w_heap f (f_heap f ++ [new_task_cstr name kd r (f_nv f + f_k f)])) = sh').
    { unfold shapes. cbn [w_heap f_heap]. rewrite map_app. change (map shape (f_heap f)) with (shapes f). rewrite L2. unfold sh'. rewrite L10, L11, Nat.add_0_r. destruct kd; reflexivity. }
    destruct kd; destruct (lvl =? 0); (split; [exact SH|]); cbn [w_hqp w_heap w_eq w_in f_hqp f_motions f_acts f_forces f_contacts f_meas f_trans f_nv f_k]; repeat (split; [assumption || reflexivity|]); assumption. }
  destruct AC as (f' & EA & A2 & A3 & A4 & A5 & A6 & A7 & A8 & A9 & A10 & A11).
  split.
  - exists (w_motions f' (f_motions f' ++ [t])).
    assert (ST : fstep f (@OAddMotion Rnum id name kd r w lvl 0%R) = Ret (w_motions f' (f_motions f' ++ [t])) (OutBool true)) by (cbn [Formulation.step]; unfold add_motion; rewrite AO, EA; reflexivity).
    split; [exact ST|]. constructor; try assumption; [|cbn [w_motions f_motions]; rewrite A4; reflexivity].
    eapply reach_step; [exact L1| |rewrite ST; reflexivity]. split; [split|exact I]; [split; [apply reservedb_ok; exact Hn|exact NF]|cbn [op_ok]; rewrite L3; exact LV].
  - exists (w_acts f' (f_acts f' ++ [t])).
    assert (ST : fstep f (@OAddAct Rnum id name kd r w lvl 0%R) = Ret (w_acts f' (f_acts f' ++ [t])) (OutBool true)) by (cbn [Formulation.step]; unfold add_act; rewrite AO, EA; reflexivity).
    split; [exact ST|]. constructor; try assumption; [|cbn [w_acts f_acts]; rewrite A5; reflexivity].
    eapply reach_step; [exact L1| |rewrite ST; reflexivity]. split; [split|exact I]; [split; [apply reservedb_ok; exact Hn|exact NF]|cbn [op_ok]; rewrite L3; exact LV].
Qed.
End Looks.
