(** Proofs about the contacts. *)
From Coq Require Import String List Arith Bool QArith Reals Qreals Lia Lra.
From Verif Require Import Scalar Outcome Linalg Constraint FormPhysSpec RSum Contacts ContactSpec.
Import ListNotations.
Open Scope string_scope.
Open Scope list_scope.
Open Scope nat_scope.

Section Gen.
Context {K : num}.
Variable sq : K -> K.
Implicit Types s : cont K.
Local Notation force_ineq := (force_ineq sq).
Local Notation cont_new := (cont_new sq).
Local Notation cstep := (cstep sq).

Lemma ceq_refl (c : constr K) : ceq c c.
Proof. repeat split; auto. Qed.
Lemma ceq_trans (a b c : constr K) : ceq a b -> ceq b c -> ceq a c.
Proof.
  intros (A1 & A2 & A3 & A4 & A5 & A6) (B1 & B2 & B3 & B4 & B5 & B6). unfold ceq.
  split; [congruence|]. split; [congruence|]. split; [eapply meq_trans; eassumption|].
  split; [eapply veq_trans; eassumption|]. split; eapply veq_trans; eassumption.
Qed.

(** The force constraint is the one of the current parameters. *)
Definition current k s : Prop :=
  ceq (k_ineq s) (force_ineq k (c_name (k_ineq s)) (k_n s) (k_mu s) (k_fmin s) (k_fmax s)).
Definition positive s : Prop := (n0 <? k_fmin s)%num = true /\ (k_fmin s <=? k_fmax s)%num = true /\ (n0 <? k_mu s)%num = true.

Lemma new_facts k dbg jk name P n mu fmin fmax s : cont_new k dbg jk name P n mu fmin fmax = Some s ->
  current k s /\ c_name (k_ineq s) = name /\ k_mu s = mu /\ k_fmin s = fmin /\ k_fmax s = fmax /\ k_n s = n /\
  k_pts s = match k with K6 => P | _ => mzero 3 1 end.
Proof.
  unfold cont_new. destruct (match k with K6 => _ | KP => _ | K2 => _ end) as [[]|]; [cbn [obind]|discriminate].
  destruct (force_reg k name _ _ _) as [r|]; [cbn [obind]|discriminate].
  intros H; injection H as <-. cbn [k_ineq k_n k_mu k_fmin k_fmax c_name k_pts].
  assert (N : c_name (force_ineq k name n mu fmin fmax) = name) by (destruct k; reflexivity).
  split; [unfold current; cbn [k_ineq k_n k_mu k_fmin k_fmax]; rewrite N; apply ceq_refl|]. auto 10.
Qed.
Lemma set_last_twice (v w : vec K) x y : veq v (set_last w y) -> veq (set_last v x) (set_last w x).
Proof.
  intros [H1 H2]. split; [exact H1|]. cbn [set_last vlen vget] in *. intros i Hi.
  specialize (H2 i Hi). rewrite H1. destruct (i =? vlen w - 1) eqn:E; [reflexivity|exact H2].
Qed.
Lemma check_ret c s s1 s2 b : check_arg c s s1 = Ret s2 b -> c = true /\ s2 = s1 /\ b = true.
Proof. unfold check_arg. destruct c; [intros H; injection H as <- <-; auto|discriminate]. Qed.
Lemma reg_ret k s f w s2 b : refresh_reg k s f w = Ret s2 b ->
  exists c, force_reg k (c_name (k_reg s)) w f (k_gen s) = Some c /\ s2 = w_reg s f w c /\ b = true.
Proof.
  unfold refresh_reg. destruct (force_reg _ _ _ _ _) as [c|]; [|discriminate]. intros H; injection H as <- <-. eauto.
Qed.
Lemma ineq_name k name n mu a b : c_name (force_ineq k name n mu a b) = name.
Proof. destruct k; reflexivity. Qed.

(** Rejected calls leave the contact unchanged and no setter returns false. *)
Theorem setter_exc k s (o : cop K k) s' : cstep k s o = Exc s' -> s' = s.
Proof.
  destruct o as [P|k n|k mu|k f|k f|k f|k w]; cbn [cstep]; unfold check_arg, refresh_reg;
    repeat match goal with
      | |- context [match ?x with K6 => _ | KP => _ | K2 => _ end] => destruct x
      | |- context [if ?x then _ else _] => destruct x
      | |- context [match force_reg ?a ?b ?c ?d ?e with Some _ => _ | None => _ end] => destruct (force_reg a b c d e)
      end; try discriminate; intros H; injection H as <-; reflexivity.
Qed.
Theorem setter_true k s (o : cop K k) s' r : cstep k s o = Ret s' r -> r = true.
Proof.
  destruct o as [P|k n|k mu|k f|k f|k f|k w]; cbn [cstep]; unfold check_arg, refresh_reg;
    repeat match goal with
      | |- context [match ?x with K6 => _ | KP => _ | K2 => _ end] => destruct x
      | |- context [if ?x then _ else _] => destruct x
      | |- context [match force_reg ?a ?b ?c ?d ?e with Some _ => _ | None => _ end] => destruct (force_reg a b c d e)
      end; try discriminate; intros H; injection H as _ <-; reflexivity.
Qed.

Lemma current_step k s (o : cop K k) s' r : current k s -> cstep k s o = Ret s' r ->
  current k s' /\ c_name (k_ineq s') = c_name (k_ineq s).
Proof.
  intros C. destruct o as [P|k n|k mu|k f|k f|k f|k w]; cbn [cstep].
  - intros H. apply check_ret in H as (_ & -> & _). split; [exact C|reflexivity].
  - destruct k; [| |intros H; injection H as <- _; split; [exact C|reflexivity]];
      intros H; apply check_ret in H as (_ & -> & _); split; [apply ceq_refl|reflexivity|apply ceq_refl|reflexivity].
  - destruct k; [| |intros H; injection H as <- _; split; [exact C|reflexivity]];
      intros H; apply check_ret in H as (_ & -> & _); split; [apply ceq_refl|reflexivity|apply ceq_refl|reflexivity].
  - assert (G : forall k', k' <> K2 -> current k' s -> current k' (w_ineq s (k_n s) (k_mu s) f (k_fmax s)
                  (mkConstr (c_name (k_ineq s)) (c_kind (k_ineq s)) (c_mat (k_ineq s)) (c_vec (k_ineq s))
                            (set_last (c_lb (k_ineq s)) f) (c_ub (k_ineq s))))).
    { intros k' Hk (C1 & C2 & C3 & C4 & C5 & C6). unfold current, ceq. cbn [w_ineq k_ineq k_n k_mu k_fmin k_fmax c_name c_kind c_mat c_vec c_lb c_ub].
      destruct k'; [| |congruence]; cbn [Contacts.force_ineq c_name c_kind c_mat c_vec c_lb c_ub] in *; unfold friction_lb in *;
        (split; [reflexivity|]); (split; [exact C2|]); (split; [exact C3|]); (split; [exact C4|]);
        (split; [eapply set_last_twice; exact C5|exact C6]). }
    destruct k; [| |intros H; injection H as <- _; split; [apply ceq_refl|reflexivity]];
      intros H; apply check_ret in H as (_ & -> & _); (split; [apply G; [discriminate|exact C]|reflexivity]).
  - assert (G : forall k', k' <> K2 -> current k' s -> current k' (w_ineq s (k_n s) (k_mu s) (k_fmin s) f
                  (mkConstr (c_name (k_ineq s)) (c_kind (k_ineq s)) (c_mat (k_ineq s)) (c_vec (k_ineq s))
                            (c_lb (k_ineq s)) (set_last (c_ub (k_ineq s)) f)))).
    { intros k' Hk (C1 & C2 & C3 & C4 & C5 & C6). unfold current, ceq. cbn [w_ineq k_ineq k_n k_mu k_fmin k_fmax c_name c_kind c_mat c_vec c_lb c_ub].
      destruct k'; [| |congruence]; cbn [Contacts.force_ineq c_name c_kind c_mat c_vec c_lb c_ub] in *; unfold friction_ub in *;
        (split; [reflexivity|]); (split; [exact C2|]); (split; [exact C3|]); (split; [exact C4|]);
        (split; [exact C5|eapply set_last_twice; exact C6]). }
    destruct k; [| |intros H; injection H as <- _; split; [apply ceq_refl|reflexivity]];
      intros H; apply check_ret in H as (_ & -> & _); (split; [apply G; [discriminate|exact C]|reflexivity]).
  - intros H. assert (X : exists c, s' = w_reg s f (k_w s) c).
    { destruct k; (destruct (vlen f =? _); [|discriminate]); apply reg_ret in H as (c & _ & -> & _); eauto. }
    destruct X as [c ->]. split; [exact C|reflexivity].
  - destruct (vlen w =? nreg k); [|discriminate]. intros H. apply reg_ret in H as (c & _ & -> & _). split; [exact C|reflexivity].
Qed.
Lemma positive_step k s (o : cop K k) s' r : k <> K2 -> positive s -> cstep k s o = Ret s' r -> positive s'.
Proof.
  intros Hk (P1 & P2 & P3). destruct o as [P|k n|k mu|k f|k f|k f|k w]; cbn [cstep].
  - intros H. apply check_ret in H as (_ & -> & _). repeat split; assumption.
  - destruct k; [| |congruence]; intros H; apply check_ret in H as (_ & -> & _); repeat split; assumption.
  - destruct k; [| |congruence]; intros H; apply check_ret in H as (E & -> & _); repeat split; assumption.
  - destruct k; [| |congruence]; intros H; apply check_ret in H as (E & -> & _); apply andb_true_iff in E as [E1 E2]; repeat split; assumption.
  - destruct k; [| |congruence]; intros H; apply check_ret in H as (E & -> & _); repeat split; assumption.
  - intros H. assert (X : exists c, s' = w_reg s f (k_w s) c).
    { destruct k; (destruct (vlen f =? _); [|discriminate]); apply reg_ret in H as (c & _ & -> & _); eauto. }
    destruct X as [c ->]. repeat split; assumption.
  - destruct (vlen w =? nreg k); [|discriminate]. intros H. apply reg_ret in H as (c & _ & -> & _). repeat split; assumption.
Qed.

(** States reached from the constructor by arbitrary setter calls. *)
Definition any_call k : cont K -> cop K k -> Prop := fun _ _ => True.
Definition made k dbg name s : Prop := exists jk P n mu fmin fmax s0,
  cont_new k dbg jk name P n mu fmin fmax = Some s0 /\ reach (cstep k) (any_call k) s0 s.
(** ... with valid parameters. *)
Definition made_valid k dbg name s : Prop := exists jk P n mu fmin fmax s0,
  cont_new k dbg jk name P n mu fmin fmax = Some s0 /\ positive s0 /\ reach (cstep k) (any_call k) s0 s.

Lemma after_case {A} (r : outcome (cont K) A) s' : after r = Some s' -> (exists a, r = Ret s' a) \/ r = Exc s'.
Proof. destruct r; cbn; try discriminate; intros H; injection H as <-; eauto. Qed.
Theorem made_current k dbg name s : made k dbg name s -> current k s /\ c_name (k_ineq s) = name.
Proof.
  intros (jk & P & n & mu & fmin & fmax & s0 & H0 & Hr). apply new_facts in H0 as (C & N & _).
  revert Hr. apply (reach_inv (cstep k) (any_call k) (fun s => current k s /\ c_name (k_ineq s) = name)); [split; assumption|].
  intros s1 o s2 [C1 N1] _ A. apply after_case in A as [[r E]|E].
  - destruct (current_step k s1 o s2 r C1 E) as [C2 N2]. split; [exact C2|congruence].
  - apply setter_exc in E as ->. split; assumption.
Qed.
Theorem made_positive k dbg name s : k <> K2 -> made_valid k dbg name s -> positive s.
Proof.
  intros Hk (jk & P & n & mu & fmin & fmax & s0 & H0 & Hp & Hr).
  revert Hr. apply (reach_inv (cstep k) (any_call k) positive); [exact Hp|].
  intros s1 o s2 P1 _ A. apply after_case in A as [[r E]|E].
  - eapply positive_step; eassumption.
  - apply setter_exc in E as ->. exact P1.
Qed.
Lemma valid_made k dbg name s : made_valid k dbg name s -> made k dbg name s.
Proof. intros (jk & P & n & mu & fmin & fmax & s0 & H0 & _ & Hr). exists jk, P, n, mu, fmin, fmax, s0. auto. Qed.
End Gen.

(** Entries of the friction matrix. *)
Section Entries.
Context {K : num}.
Variable sq : K -> K.
Definition frow (n : vec K) (mu : K) (j : nat) : vec K :=
  match j with
  | 0 => sub3 (vopp (t_one sq n)) (scal3 mu n)
  | 1 => sub3 (t_one sq n) (scal3 mu n)
  | 2 => sub3 (vopp (t_two sq n)) (scal3 mu n)
  | _ => sub3 (t_two sq n) (scal3 mu n)
  end.
Lemma entry4 n mu r c : r < 17 -> c < 12 ->
  mget (friction_matrix sq 4 n mu) r c =
  if r =? 16 then vget n (c mod 3) else if c / 3 =? r / 4 then vget (frow n mu (r mod 4)) (c mod 3) else n0.
Proof.
  intros Hr Hc.
  do 17 (destruct r as [|r]; [do 12 (destruct c as [|c]; [reflexivity|]); lia|]). lia.
Qed.
Lemma entry1 n mu r c : r < 5 -> c < 3 ->
  mget (friction_matrix sq 1 n mu) r c =
  if r =? 4 then vget n (c mod 3) else if c / 3 =? r / 4 then vget (frow n mu (r mod 4)) (c mod 3) else n0.
Proof.
  intros Hr Hc.
  do 5 (destruct r as [|r]; [do 3 (destruct c as [|c]; [reflexivity|]); lia|]). lia.
Qed.
End Entries.

(** Which arguments are accepted. *)
Section Accept.
Context {K : num}.
Variable sq : K -> K.
Definition acceptable {k} (s : cont K) (o : cop K k) : bool :=
  match o with
  | SetPoints P => (mrows P =? 3) && (mcols P =? 4)
  | @SetNormal _ k n => match k with K2 => true | _ => vlen n =? 3 end
  | @SetMu _ k mu => match k with K2 => true | _ => (n0 <? mu)%num end
  | @SetMin _ k f => match k with K2 => true | _ => (n0 <? f)%num && (f <=? k_fmax s)%num end
  | @SetMax _ k f => match k with K2 => true | _ => (k_fmin s <=? f)%num end
  | _ => true
  end.
Definition is_param {k} (o : cop K k) : Prop := match o with SetFref _ _ | SetWeights _ _ => False | _ => True end.
Theorem accepted_iff k s (o : cop K k) : is_param o ->
  if acceptable s o then exists s', cstep sq k s o = Ret s' true else cstep sq k s o = Exc s.
Proof.
  destruct o as [P|k n|k mu|k f|k f|k f|k w]; cbn [is_param acceptable cstep]; try tauto; intros _; unfold check_arg.
  - destruct (_ && _); eauto.
  - destruct k; try (destruct (_ =? _)); eauto.
  - destruct k; try (destruct (_ <? _)%num); eauto.
  - destruct k; try (destruct (_ && _)); eauto.
  - destruct k; try (destruct (_ <=? _)%num); eauto.
Qed.
(** ... and what an accepted call stores. *)
Theorem accepted_value k s (o : cop K k) s' r : k <> K2 -> cstep sq k s o = Ret s' r ->
  k_n s' = match o with SetNormal _ n => n | _ => k_n s end /\
  k_mu s' = match o with SetMu _ m => m | _ => k_mu s end /\
  k_fmin s' = match o with SetMin _ f => f | _ => k_fmin s end /\
  k_fmax s' = match o with SetMax _ f => f | _ => k_fmax s end /\
  k_pts s' = match o with SetPoints P => P | _ => k_pts s end /\
  k_fref s' = match o with SetFref _ f => f | _ => k_fref s end /\
  k_w s' = match o with SetWeights _ w => w | _ => k_w s end.
Proof.
  intros Hk. destruct o as [P|k n|k mu|k f|k f|k f|k w]; cbn [cstep]; unfold check_arg, refresh_reg;
    repeat match goal with
      | |- context [match ?x with K6 => _ | KP => _ | K2 => _ end] => destruct x
      | |- context [if ?x then _ else _] => destruct x
      | |- context [match force_reg ?a ?b ?c ?d ?e with Some _ => _ | None => _ end] => destruct (force_reg a b c d e)
      end; try discriminate; try congruence; intros H; injection H as <- _; repeat split.
Qed.
End Accept.
