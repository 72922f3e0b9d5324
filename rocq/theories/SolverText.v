(** The text of a problem: HQPDataToString, src/solvers/utils.cpp:13-62 ("ut" below), and
    HQPDatas::print and ConstraintLevels::print of the Python interface,
    include/tsid/bindings/python/utils/container.hpp:38-53 and 87-108, which write the same
    lines.

    [show] is operator<< of std::ostream for a double, [show_mat] and [show_vec] those of Eigen
    for a matrix and for a transposed vector; all three are parameters. *)
From Coq Require Import String Ascii List Arith Bool ZArith QArith Decimal DecimalString DecimalNat DecimalFacts Lia.
From Verif Require Import Scalar Outcome Linalg Constraint Formulation FormSpec FormInv FormInvB FormInvC FormOps FormSafe FormSafe2 FormMain.
Import ListNotations.
Open Scope string_scope.
Open Scope list_scope.
Open Scope nat_scope.

(** std::endl *)
Definition nl : string := String (ascii_of_nat 10) "".
(** operator<< for an integer that is not negative. *)
Definition digits (n : nat) : string := NilZero.string_of_uint (Nat.to_uint n).

Section Model.
Context {K : num}.
Variable show : K -> string.
Variable show_mat : mat K -> string.
Variable show_vec : vec K -> string.
Implicit Types (e : K * option (constr K)).

(** ut:25-30, container.hpp:45-50 and 98-103. *)
Definition kind_text (k : ckind) : string :=
  match k with CEq => "equality, " | CIneq => "inequality, " | CBound => "bound, " end.
(** One constraint, ut:23-31.  None: null pointer, or an assertion of rows() or cols(). *)
Definition entry_text e : option string :=
  do c <- snd e; do r <- crows c; do n <- ccols c;
  Some (" - " ++ c_name c ++ ": w=" ++ show (fst e) ++ ", " ++ kind_text (c_kind c) ++ digits r ++ "x" ++ digits n ++ nl)%string.
(** ConstraintLevels::print without its last line end; the inner loop of ut:21-32. *)
Fixpoint level_text (l : list (K * option (constr K))) : option string :=
  match l with
  | [] => Some ""
  | e :: l' => do t <- entry_text e; do t' <- level_text l'; Some (t ++ t')%string
  end.
(** The outer loop, ut:19-34; [p] is the variable priority. *)
Fixpoint levels_text (p : nat) (ls : list (list (K * option (constr K)))) : option string :=
  match ls with
  | [] => Some ""
  | l :: ls' => do t <- level_text l; do t' <- levels_text (S p) ls'; Some ("Level " ++ digits p ++ nl ++ t ++ t')%string
  end.
(** The matrices, ut:36-59. *)
Definition dump e : option string :=
  do c <- snd e;
  Some ("*** " ++ c_name c ++ " *** " ++
    match c_kind c with
    | CEq => "(equality)" ++ nl ++ "A =" ++ nl ++ show_mat (c_mat c) ++ nl ++ "b = " ++ show_vec (c_vec c) ++ nl
    | CIneq => "(inequality)" ++ nl ++ "A =" ++ nl ++ show_mat (c_mat c) ++ nl ++ "lb = " ++ show_vec (c_lb c) ++ nl ++ "ub = " ++ show_vec (c_ub c) ++ nl
    | CBound => "(bounds)" ++ nl ++ "lb = " ++ show_vec (c_lb c) ++ nl ++ "ub = " ++ show_vec (c_ub c) ++ nl
    end ++ nl)%string.
Fixpoint dumps (l : list (K * option (constr K))) : option string :=
  match l with
  | [] => Some ""
  | e :: l' => do t <- dump e; do t' <- dumps l'; Some (t ++ t')%string
  end.
(** HQPDataToString, ut:13-62. *)
Definition hqp_text (ls : list (list (K * option (constr K)))) (matrices : bool) : option string :=
  do t <- levels_text 0 ls;
  if matrices then do t' <- dumps (List.concat ls); Some (t ++ nl ++ t')%string else Some t.
(** HQPDatas::print, container.hpp:87-108: what is written to the standard output. *)
Definition py_print (ls : list (list (K * option (constr K)))) : option string :=
  do t <- levels_text 0 ls; Some (t ++ nl)%string.

(** * Specification *)
Fixpoint occurs (a : ascii) (s : string) : bool :=
  match s with EmptyString => false | String b s' => Ascii.eqb a b || occurs a s' end.
Definition one_line (s : string) : Prop := occurs (ascii_of_nat 10) s = false.
Definition colon_free (s : string) : Prop := occurs ":"%char s = false.
(** Constraints of two problems that look alike: name, class, numbers of rows and columns are
    the same, and the weights are written in the same way. *)
Definition alike e e' : Prop :=
  exists c c' r n, snd e = Some c /\ snd e' = Some c' /\
    c_name c = c_name c' /\ c_kind c = c_kind c' /\ show (fst e) = show (fst e') /\
    crows c = Some r /\ crows c' = Some r /\ ccols c = Some n /\ ccols c' = Some n.
Definition plain_name e : Prop := forall c, snd e = Some c -> one_line (c_name c).
(** Constraints whose matrices and vectors are written in the same way. *)
Definition same_numbers e e' : Prop :=
  exists c c', snd e = Some c /\ snd e' = Some c' /\ (c_kind c <> CBound -> show_mat (c_mat c) = show_mat (c_mat c')) /\
    (c_kind c = CEq -> show_vec (c_vec c) = show_vec (c_vec c')) /\
    (c_kind c <> CEq -> show_vec (c_lb c) = show_vec (c_lb c') /\ show_vec (c_ub c) = show_vec (c_ub c')).
(** Number of line ends. *)
Fixpoint line_ends (s : string) : nat :=
  match s with EmptyString => 0 | String b s' => (if Ascii.eqb (ascii_of_nat 10) b then 1 else 0) + line_ends s' end.
(** A vector is written on one line, a matrix with as many line ends as its size says. *)
Definition lines_by_size : Prop := (forall v, one_line (show_vec v)) /\
  forall A B : mat K, mrows A = mrows B -> mcols A = mcols B -> line_ends (show_mat A) = line_ends (show_mat B).
End Model.
Arguments alike {K} show e e'.

(** * Proofs *)
Lemma occurs_app a s t : occurs a (s ++ t)%string = occurs a s || occurs a t.
Proof. induction s as [|b s IH]; cbn; [reflexivity|]. rewrite IH. apply orb_assoc. Qed.
Lemma app_assoc_s (a b c : string) : ((a ++ b) ++ c = a ++ (b ++ c))%string.
Proof. induction a as [|x a IH]; cbn; [reflexivity|]. rewrite IH. reflexivity. Qed.
Lemma split_first x : forall a a' b b', occurs x a = false -> occurs x a' = false -> (a ++ String x b = a' ++ String x b')%string -> a = a' /\ b = b'.
Proof.
  induction a as [|y a IH]; intros [|y' a'] b b' H H' E; cbn in *.
  - injection E as E. auto.
  - injection E as <- E. rewrite Ascii.eqb_refl in H'. discriminate.
  - injection E as -> E. rewrite Ascii.eqb_refl in H. discriminate.
  - injection E as <- E. apply orb_false_iff in H as [_ H]. apply orb_false_iff in H' as [_ H']. destruct (IH _ _ _ H H' E) as [-> ->]. auto.
Qed.
Lemma split_last x : forall a a' b b', occurs x b = false -> occurs x b' = false -> (a ++ String x b = a' ++ String x b')%string -> a = a' /\ b = b'.
Proof.
  induction a as [|y a IH]; intros [|y' a'] b b' H H' E; cbn in *.
  - injection E as E. auto.
  - injection E as <- E. subst b. rewrite occurs_app in H. cbn in H. rewrite Ascii.eqb_refl, orb_true_r in H. discriminate.
  - injection E as -> E. subst b'. rewrite occurs_app in H'. cbn in H'. rewrite Ascii.eqb_refl, orb_true_r in H'. discriminate.
  - injection E as <- E. destruct (IH _ _ _ H H' E) as [-> ->]. auto.
Qed.
Lemma app_inv_l : forall a b b' : string, (a ++ b = a ++ b')%string -> b = b'.
Proof. induction a as [|x a IH]; cbn; intros b b' E; [exact E|]. injection E as E. auto. Qed.

Definition digit (a : ascii) : bool := (48 <=? nat_of_ascii a) && (nat_of_ascii a <=? 57).
Lemma digits_only x : digit x = false -> forall n, occurs x (digits n) = false.
Proof.
  intros D n. unfold digits.
  assert (H : forall u, occurs x (NilEmpty.string_of_uint u) = false).
  { induction u as [|u IH|u IH|u IH|u IH|u IH|u IH|u IH|u IH|u IH|u IH]; cbn [NilEmpty.string_of_uint occurs]; [reflexivity|..];
      rewrite IH, orb_false_r; apply Ascii.eqb_neq; intros ->; discriminate D. }
  destruct (Nat.to_uint n) eqn:E; try apply H. cbn. rewrite orb_false_r. apply Ascii.eqb_neq. intros ->. discriminate D.
Qed.
Lemma digits_inj n m : digits n = digits m -> n = m.
Proof.
  assert (A : forall k, option_map Nat.of_uint (NilZero.uint_of_string (digits k)) = Some k).
  { intros k. unfold digits. destruct (Nat.to_uint k) as [|u|u|u|u|u|u|u|u|u|u] eqn:E; rewrite <- (Unsigned.of_to k), E; [reflexivity|..];
      rewrite NilZero.usu by discriminate; reflexivity. }
  intros E. assert (B := A n). rewrite E, A in B. congruence.
Qed.

Section Proofs.
Context {K : num}.
Variable show : K -> string.
Hypothesis plain_show : forall w, one_line (show w) /\ colon_free (show w).
Implicit Types (e : K * option (constr K)).

Lemma kind_free x k : x = ":"%char \/ x = ascii_of_nat 10 -> occurs x (kind_text k) = false.
Proof. intros [->| ->]; destruct k; reflexivity. Qed.
Ltac free := repeat rewrite occurs_app; cbn [occurs orb]; rewrite ?digits_only, ?kind_free by auto; try reflexivity.

(** The text of a constraint without its first three characters and its line end. *)
Definition body (name w : string) (k : ckind) (r n : nat) : string :=
  (name ++ ": w=" ++ w ++ ", " ++ kind_text k ++ digits r ++ "x" ++ digits n)%string.
Lemma body_inj name w k r n name' w' k' r' n' : colon_free w -> colon_free w' ->
  body name w k r n = body name' w' k' r' n' -> name = name' /\ w = w' /\ k = k' /\ r = r' /\ n = n'.
Proof.
  unfold body, colon_free. intros H H' E.
  apply (split_last ":"%char name name' (" w=" ++ w ++ ", " ++ kind_text k ++ digits r ++ "x" ++ digits n)%string
    (" w=" ++ w' ++ ", " ++ kind_text k' ++ digits r' ++ "x" ++ digits n')%string) in E as [-> E].
  2: { repeat rewrite occurs_app. rewrite H, !digits_only, kind_free by auto. reflexivity. }
  2: { repeat rewrite occurs_app. rewrite H', !digits_only, kind_free by auto. reflexivity. }
  apply app_inv_l in E.
  assert (F : forall k r n, (", " ++ kind_text k ++ digits r ++ "x" ++ digits n)%string =
     (", " ++ match k with CEq => "equality" | CIneq => "inequality" | CBound => "bound" end ++ String "," (" " ++ digits r ++ "x" ++ digits n))%string).
  { intros [] ? ?; reflexivity. }
  rewrite !F in E. rewrite <- !app_assoc_s in E.
  apply split_last in E as [E1 E2].
  2: { repeat rewrite occurs_app. rewrite !digits_only by auto. reflexivity. }
  2: { repeat rewrite occurs_app. rewrite !digits_only by auto. reflexivity. }
  assert (G : forall a b : string, ((a ++ ", ") ++ b = a ++ String "," (" " ++ b))%string) by (intros a b; rewrite app_assoc_s; reflexivity).
  rewrite !G in E1. apply split_last in E1 as [-> E1]; [|destruct k; reflexivity|destruct k'; reflexivity].
  rewrite !app_assoc_s in E2. apply app_inv_l in E2. apply (split_first "x"%char) in E2 as [E2 E3]; [|apply digits_only; reflexivity|apply digits_only; reflexivity].
  apply digits_inj in E2. apply digits_inj in E3. subst. repeat split. destruct k, k'; (reflexivity || discriminate E1).
Qed.
Lemma body_line name w k r n : one_line name -> one_line w -> one_line (body name w k r n).
Proof. unfold one_line, body. intros A B. repeat rewrite occurs_app. rewrite A, B, !digits_only, kind_free by auto. reflexivity. Qed.
Lemma entry_inv e t : entry_text show e = Some t -> exists c r n, snd e = Some c /\ crows c = Some r /\ ccols c = Some n /\
  t = (" - " ++ body (c_name c) (show (fst e)) (c_kind c) r n ++ nl)%string.
Proof.
  unfold entry_text. destruct (snd e) as [c|]; [|discriminate]. cbn [obind]. destruct (crows c) as [r|] eqn:R; [|discriminate]. cbn [obind].
  destruct (ccols c) as [n|] eqn:N; [|discriminate]. cbn [obind]. intros E. injection E as <-. exists c, r, n. repeat split; auto.
  unfold body. rewrite !app_assoc_s. reflexivity.
Qed.
Lemma entry_alike e e' t t' x x' : plain_name e -> plain_name e' -> entry_text show e = Some t -> entry_text show e' = Some t' ->
  (t ++ x = t' ++ x')%string -> alike show e e' /\ x = x'.
Proof.
  intros P P' E E' H. apply entry_inv in E as (c & r & n & E1 & E2 & E3 & ->). apply entry_inv in E' as (c' & r' & n' & E1' & E2' & E3' & ->).
  rewrite !app_assoc_s in H. apply app_inv_l in H. cbn [nl append] in H. apply split_first in H as [H ->].
  2: { apply body_line; [apply P; exact E1|apply plain_show]. }
  2: { apply body_line; [apply P'; exact E1'|apply plain_show]. }
  split; [|reflexivity]. apply body_inj in H as (A & B & C & -> & ->); [|apply plain_show|apply plain_show].
  exists c, c', r', n'. repeat split; assumption.
Qed.
(** What follows a level: nothing or the next one. *)
Definition next (x : string) : Prop := forall t, x <> (" - " ++ t)%string.
Lemma level_alike : forall l l' t t' x x', Forall plain_name l -> Forall plain_name l' -> next x -> next x' ->
  level_text show l = Some t -> level_text show l' = Some t' -> (t ++ x = t' ++ x')%string -> Forall2 (alike show) l l' /\ x = x'.
Proof.
  induction l as [|e l IH]; intros [|e' l'] t t' x x' P P' N N' E E' H; cbn [level_text] in E, E'.
  - injection E as <-. injection E' as <-. split; [constructor|exact H].
  - injection E as <-. destruct (entry_text show e') as [u|] eqn:U; [|discriminate]. cbn [obind] in E'.
    destruct (level_text show l') as [v|]; [|discriminate]. injection E' as <-. apply entry_inv in U as (? & ? & ? & _ & _ & _ & ->).
    exfalso. rewrite !app_assoc_s in H. exact (N _ H).
  - injection E' as <-. destruct (entry_text show e) as [u|] eqn:U; [|discriminate]. cbn [obind] in E.
    destruct (level_text show l) as [v|]; [|discriminate]. injection E as <-. apply entry_inv in U as (? & ? & ? & _ & _ & _ & ->).
    exfalso. rewrite !app_assoc_s in H. symmetry in H. exact (N' _ H).
  - destruct (entry_text show e) as [u|] eqn:U; [|discriminate]. destruct (entry_text show e') as [u'|] eqn:U'; [|discriminate]. cbn [obind] in E, E'.
    destruct (level_text show l) as [v|] eqn:V; [|discriminate]. destruct (level_text show l') as [v'|] eqn:V'; [|discriminate].
    injection E as <-. injection E' as <-. inversion P as [|? ? P1 P2]. inversion P' as [|? ? P1' P2']. subst. rewrite !app_assoc_s in H.
    destruct (entry_alike _ _ _ _ _ _ P1 P1' U U' H) as [A H2]. destruct (IH l' v v' x x' P2 P2' N N' eq_refl V' H2) as [B ->].
    split; [constructor; assumption|reflexivity].
Qed.
Lemma next_levels p ls t z : next z -> levels_text show p ls = Some t -> next (t ++ z)%string.
Proof.
  intros Z. destruct ls as [|l ls]; cbn [levels_text]; [intros E; injection E as <-; exact Z|].
  destruct (level_text show l); [|discriminate]. cbn [obind]. destruct (levels_text show (S p) ls); [|discriminate]. cbn [obind].
  intros E. injection E as <-. intros u H. discriminate H.
Qed.
(** What follows the levels. *)
Definition ended (x : string) : Prop := next x /\ forall t, x <> ("Level " ++ t)%string.
Lemma levels_alike : forall ls ls' p t t' z z', Forall (Forall plain_name) ls -> Forall (Forall plain_name) ls' -> ended z -> ended z' ->
  levels_text show p ls = Some t -> levels_text show p ls' = Some t' -> (t ++ z = t' ++ z')%string -> Forall2 (Forall2 (alike show)) ls ls' /\ z = z'.
Proof.
  induction ls as [|l ls IH]; intros [|l' ls'] p t t' z z' P P' Z Z' E E' H; cbn [levels_text] in E, E'.
  - injection E as <-. injection E' as <-. split; [constructor|exact H].
  - injection E as <-. destruct (level_text show l'); [|discriminate]. cbn [obind] in E'. destruct (levels_text show (S p) ls'); [|discriminate].
    injection E' as <-. exfalso. cbn [append] in H. exact (proj2 Z _ H).
  - injection E' as <-. destruct (level_text show l); [|discriminate]. cbn [obind] in E. destruct (levels_text show (S p) ls); [|discriminate].
    injection E as <-. exfalso. cbn [append] in H. symmetry in H. exact (proj2 Z' _ H).
  - destruct (level_text show l) as [u|] eqn:U; [|discriminate]. destruct (level_text show l') as [u'|] eqn:U'; [|discriminate]. cbn [obind] in E, E'.
    destruct (levels_text show (S p) ls) as [v|] eqn:V; [|discriminate]. destruct (levels_text show (S p) ls') as [v'|] eqn:V'; [|discriminate].
    injection E as <-. injection E' as <-. inversion P as [|? ? P1 P2]. inversion P' as [|? ? P1' P2']. subst.
    assert (X : forall a b c, ((("Level " ++ digits p ++ nl ++ a ++ b) ++ c) = "Level " ++ (digits p ++ (nl ++ (a ++ (b ++ c)))))%string)
      by (intros a b c; cbn [append nl]; rewrite !app_assoc_s; cbn [append]; rewrite !app_assoc_s; reflexivity).
    change (String "L" _ ++ z)%string with (("Level " ++ digits p ++ nl ++ u ++ v) ++ z)%string in H.
    change (String "L" _ ++ z')%string with (("Level " ++ digits p ++ nl ++ u' ++ v') ++ z')%string in H.
    rewrite !X in H. do 3 apply app_inv_l in H.
    destruct (level_alike l l' u u' (v ++ z) (v' ++ z')%string P1 P1' (next_levels _ _ _ _ (proj1 Z) V) (next_levels _ _ _ _ (proj1 Z') V') U U' H) as [A H2].
    destruct (IH ls' (S p) v v' z z' P2 P2' Z Z' V V' H2) as [B ->]. split; [constructor; assumption|reflexivity].
Qed.

Lemma ended_nil : ended "".
Proof. split; intros t H; discriminate H. Qed.
Lemma app_nil_s (a : string) : (a ++ "" = a)%string.
Proof. induction a as [|x a IH]; cbn; [reflexivity|]. rewrite IH. reflexivity. Qed.
(** Equal texts, alike problems. *)
Theorem text_tells sm sv ls ls' t : Forall (Forall plain_name) ls -> Forall (Forall plain_name) ls' ->
  hqp_text show sm sv ls false = Some t -> hqp_text show sm sv ls' false = Some t -> Forall2 (Forall2 (alike show)) ls ls'.
Proof.
  intros P P' E E'. unfold hqp_text in E, E'.
  destruct (levels_text show 0 ls) as [u|] eqn:U; [|discriminate]. destruct (levels_text show 0 ls') as [u'|] eqn:U'; [|discriminate].
  cbn [obind] in E, E'. apply (levels_alike ls ls' 0 u u' "" "" P P' ended_nil ended_nil U U'). rewrite !app_nil_s. congruence.
Qed.
Lemma ended_nl t : ended (nl ++ t)%string.
Proof. split; intros u H; discriminate H. Qed.
Lemma split_ends : forall a a' b b', line_ends a = line_ends a' -> (a ++ nl ++ b = a' ++ nl ++ b')%string -> a = a' /\ b = b'.
Proof.
  induction a as [|y a IH]; intros [|y' a'] b b' L E; cbn [append nl line_ends] in *.
  - injection E as E. auto.
  - injection E as <- E. cbn in L. discriminate.
  - injection E as -> E. cbn in L. discriminate.
  - injection E as <- E. destruct (IH a' b b' ltac:(lia) E) as [-> ->]. auto.
Qed.
Lemma one_line_ends s : one_line s -> line_ends s = 0.
Proof. unfold one_line. induction s as [|x s IH]; cbn [occurs line_ends]; intros H; [reflexivity|]. apply orb_false_iff in H as [H1 H2]. rewrite H1. cbn [Nat.add]. apply IH. exact H2. Qed.
Lemma rows_mat (c : constr K) r : c_kind c <> CBound -> crows c = Some r -> mrows (c_mat c) = r.
Proof. unfold crows. destruct (c_kind c); try contradiction; intros _; match goal with |- context [if ?b then _ else _] => destruct b end; try discriminate; congruence. Qed.
Lemma cols_mat (c : constr K) n : c_kind c <> CBound -> ccols c = Some n -> mcols (c_mat c) = n.
Proof. unfold ccols. destruct (c_kind c); try contradiction; intros _; try discriminate; congruence. Qed.
Lemma some_inj {A} (a b : A) : Some a = Some b -> b = a.
Proof. congruence. Qed.
Lemma dump_same show_mat show_vec e e' t t' z z' : lines_by_size show_mat show_vec -> alike show e e' -> plain_name e ->
  dump show_mat show_vec e = Some t -> dump show_mat show_vec e' = Some t' -> (t ++ z = t' ++ z')%string -> same_numbers show_mat show_vec e e' /\ z = z'.
Proof.
  intros [HV HM] (c & c' & r & n & E & E' & N & KD & _ & R & R' & CC & CC') _ D D' H. unfold dump in D, D'. rewrite E in D. rewrite E' in D'. cbn [obind] in D, D'.
  assert (X : forall u u', (("*** " ++ c_name c ++ " *** " ++ u ++ nl) ++ z = ("*** " ++ c_name c ++ " *** " ++ u' ++ nl) ++ z')%string -> (u ++ (nl ++ z) = u' ++ (nl ++ z'))%string).
  { intros u u' Q. rewrite !app_assoc_s in Q. do 3 apply app_inv_l in Q. exact Q. }
  apply some_inj in D. apply some_inj in D'. subst t t'. rewrite <- N in H. apply X in H. rewrite <- KD in H.
  assert (M : c_kind c <> CBound -> line_ends (show_mat (c_mat c)) = line_ends (show_mat (c_mat c'))).
  { intros NB. assert (NB' : c_kind c' <> CBound) by congruence. apply HM; [rewrite (rows_mat c r NB R), (rows_mat c' r NB' R')|rewrite (cols_mat c n NB CC), (cols_mat c' n NB' CC')]; reflexivity. }
  assert (V : forall v v', line_ends (show_vec v) = line_ends (show_vec v')) by (intros v v'; rewrite !one_line_ends by apply HV; reflexivity).
  destruct (c_kind c) eqn:KC; rewrite !app_assoc_s in H.
  - do 4 apply app_inv_l in H. apply split_ends in H as [H1 H]; [|apply M; discriminate]. apply app_inv_l in H. apply split_ends in H as [H2 H]; [|apply V]. apply app_inv_l in H.
    split; [|exact H]. exists c, c'. rewrite KC. repeat split; auto; congruence.
  - do 4 apply app_inv_l in H. apply split_ends in H as [H1 H]; [|apply M; discriminate]. apply app_inv_l in H. apply split_ends in H as [H2 H]; [|apply V]. apply app_inv_l in H. apply split_ends in H as [H3 H]; [|apply V]. apply app_inv_l in H.
    split; [|exact H]. exists c, c'. rewrite KC. repeat split; auto; congruence.
  - do 3 apply app_inv_l in H. apply split_ends in H as [H2 H]; [|apply V]. apply app_inv_l in H. apply split_ends in H as [H3 H]; [|apply V]. apply app_inv_l in H.
    split; [|exact H]. exists c, c'. rewrite KC. repeat split; auto; congruence.
Qed.
Lemma dumps_same show_mat show_vec : lines_by_size show_mat show_vec -> forall l l' t t' z z', Forall2 (alike show) l l' -> Forall plain_name l ->
  dumps show_mat show_vec l = Some t -> dumps show_mat show_vec l' = Some t' -> (t ++ z = t' ++ z')%string -> Forall2 (same_numbers show_mat show_vec) l l' /\ z = z'.
Proof.
  intros HL. induction l as [|e l IH]; intros l' t t' z z' F P D D' H; inversion F as [|? e' ? l'' FA FL]; subst; cbn [dumps] in D, D'.
  - injection D as <-. injection D' as <-. split; [constructor|exact H].
  - destruct (dump show_mat show_vec e) as [u|] eqn:U; [|discriminate]. destruct (dump show_mat show_vec e') as [u'|] eqn:U'; [|discriminate]. cbn [obind] in D, D'.
    destruct (dumps show_mat show_vec l) as [v|] eqn:V; [|discriminate]. destruct (dumps show_mat show_vec l'') as [v'|] eqn:V'; [|discriminate]. cbn [obind] in D, D'. injection D as <-. injection D' as <-.
    inversion P as [|? ? P1 P2]; subst. rewrite !app_assoc_s in H. destruct (dump_same show_mat show_vec e e' u u' _ _ HL FA P1 U U' H) as [S1 H1].
    destruct (IH l'' v v' z z' FL P2 eq_refl V' H1) as [S2 H2]. split; [constructor; assumption|exact H2].
Qed.
Lemma forall2_concat {A} (Q : A -> A -> Prop) (Q' : A -> A -> Prop) : forall ls ls', Forall2 (Forall2 Q) ls ls' -> Forall2 Q' (List.concat ls) (List.concat ls') -> Forall2 (Forall2 Q') ls ls'.
Proof.
  intros ls ls' F. induction F as [|l l' ls ls' FL F IH]; intros H; [constructor|]. cbn [List.concat] in H.
  assert (X : forall a a' b b', Forall2 Q a a' -> Forall2 Q' (a ++ b) (a' ++ b') -> Forall2 Q' a a' /\ Forall2 Q' b b').
  { intros a a' b b' FA. induction FA; cbn [app]; intros G; [split; [constructor|exact G]|]. inversion G; subst. destruct IHFA as [I1 I2]; [assumption|]. split; [constructor; assumption|exact I2]. }
  destruct (X _ _ _ _ FL H) as [H1 H2]. constructor; auto.
Qed.
Lemma forall_concat {A} (Q : A -> Prop) ls : Forall (Forall Q) ls -> Forall Q (List.concat ls).
Proof. induction 1; cbn [List.concat]; [constructor|]. apply Forall_app. auto. Qed.
Lemma forall2_concat_r {A} (Q : A -> A -> Prop) ls ls' : Forall2 (Forall2 Q) ls ls' -> Forall2 Q (List.concat ls) (List.concat ls').
Proof. induction 1; cbn [List.concat]; [constructor|]. apply Forall2_app; auto. Qed.
Theorem text_tells_full show_mat show_vec ls ls' t : lines_by_size show_mat show_vec -> Forall (Forall plain_name) ls -> Forall (Forall plain_name) ls' ->
  hqp_text show show_mat show_vec ls true = Some t -> hqp_text show show_mat show_vec ls' true = Some t ->
  Forall2 (Forall2 (alike show)) ls ls' /\ Forall2 (Forall2 (same_numbers show_mat show_vec)) ls ls'.
Proof.
  intros HL P P'. unfold hqp_text. destruct (levels_text show 0 ls) as [u|] eqn:U; [|discriminate]. destruct (levels_text show 0 ls') as [u'|] eqn:U'; [|discriminate].
  cbn [obind]. destruct (dumps _ _ (concat ls)) as [d|] eqn:D; [|discriminate]. destruct (dumps _ _ (concat ls')) as [d'|] eqn:D'; [|discriminate].
  cbn [obind]. intros E E'. assert (H : (u ++ nl ++ d = u' ++ nl ++ d')%string) by congruence.
  destruct (levels_alike ls ls' 0 u u' (nl ++ d)%string (nl ++ d')%string P P' (ended_nl _) (ended_nl _) U U' H) as [A B].
  split; [exact A|]. apply app_inv_l in B. apply (forall2_concat (alike show)); [exact A|].
  apply (dumps_same show_mat show_vec HL _ _ d d' "" "" (forall2_concat_r _ _ _ A) (forall_concat _ _ P) D D'). rewrite B. reflexivity.
Qed.
Theorem print_tells ls ls' t : Forall (Forall plain_name) ls -> Forall (Forall plain_name) ls' ->
  py_print show ls = Some t -> py_print show ls' = Some t -> Forall2 (Forall2 (alike show)) ls ls'.
Proof.
  intros P P'. unfold py_print. destruct (levels_text show 0 ls) as [u|] eqn:U; [|discriminate]. destruct (levels_text show 0 ls') as [u'|] eqn:U'; [|discriminate].
  cbn [obind]. intros E E'. assert (H : (u ++ nl ++ "" = u' ++ nl ++ "")%string) by (change (nl ++ "")%string with nl; congruence).
  exact (proj1 (levels_alike ls ls' 0 u u' (nl ++ "")%string (nl ++ "")%string P P' (ended_nl _) (ended_nl _) U U' H)).
Qed.
End Proofs.

(** * The problem of a formulation *)
Section Form.
Context {K : num}.
Variable show : K -> string.
Variable show_mat : mat K -> string.
Variable show_vec : vec K -> string.
Variable dbg : bool.
Lemma level_total (l : list (K * option (constr K))) : (forall e, In e l -> exists c, snd e = Some c /\ (exists r, crows c = Some r) /\ exists n, ccols c = Some n) ->
  exists t, level_text show l = Some t.
Proof.
  induction l as [|e l IH]; intros H; cbn [level_text]; [eauto|].
  destruct (H e (or_introl eq_refl)) as (c & E & (r & R) & n & N). unfold entry_text. rewrite E. cbn [obind]. rewrite R. cbn [obind]. rewrite N. cbn [obind].
  destruct IH as [t ->]; [intros x Hx; apply H; right; exact Hx|]. cbn [obind]. eauto.
Qed.
Lemma levels_total ls : forall p, (forall l e, In l ls -> In e l -> exists c : constr K, snd e = Some c /\ (exists r, crows c = Some r) /\ exists n, ccols c = Some n) ->
  exists t, levels_text show p ls = Some t.
Proof.
  induction ls as [|l ls IH]; intros p H; cbn [levels_text]; [eauto|].
  destruct (level_total l) as [t ->]; [intros e He; exact (H l e (or_introl eq_refl) He)|]. cbn [obind].
  destruct (IH (S p)) as [t' ->]; [intros x e Hx He; exact (H x e (or_intror Hx) He)|]. cbn [obind]. eauto.
Qed.
Lemma dumps_total (l : list (K * option (constr K))) : (forall e, In e l -> exists c, snd e = Some c) -> exists t, dumps show_mat show_vec l = Some t.
Proof.
  induction l as [|e l IH]; intros H; cbn [dumps]; [eauto|]. destruct (H e (or_introl eq_refl)) as [c E]. unfold dump. rewrite E. cbn [obind].
  destruct IH as [t ->]; [intros x Hx; apply H; right; exact Hx|]. cbn [obind]. eauto.
Qed.
Theorem text_defined nv na (M0 : mat K) H0 s m : mrows M0 = nv -> mcols M0 = nv -> vlen H0 = nv ->
  reach (step dbg) (good dbg) (init nv na M0 H0) s -> exists t, hqp_text show show_mat show_vec (hqp s) m = Some t.
Proof.
  intros E1 E2 E3 Hr. destruct (safe_reach dbg nv na M0 H0 s E1 E2 E3 Hr) as (A & B & S).
  assert (G : forall l e, In l (hqp s) -> In e l -> exists c : constr K, snd e = Some c /\ (exists r, crows c = Some r) /\ exists n, ccols c = Some n).
  { intros l e Hl He. destruct (no_dangling s A l e Hl He) as [c Hc]. exists c. split; [exact Hc|].
    unfold hqp in Hl. apply in_map_iff in Hl as (l0 & <- & Hl). apply in_map_iff in He as (e0 & <- & He). cbn [deref snd] in Hc.
    assert (Z : sized c) by exact (sized_nth _ _ _ (is_cells _ (proj1 S)) Hc). unfold sized in Z.
    split; [eauto|]. unfold crows in Z. unfold ccols. destruct (c_kind c); [eauto|eauto|]. destruct (vlen (c_lb c) =? vlen (c_ub c)); [eauto|discriminate]. }
  unfold hqp_text. destruct (levels_total (hqp s) 0 G) as [t ->]. cbn [obind]. destruct m; [|eauto].
  destruct (dumps_total (List.concat (hqp s))) as [t' ->]; [|cbn [obind]; eauto].
  intros e He. apply in_concat in He as (l & Hl & He). destruct (G l e Hl He) as (c & Hc & _). eauto.
Qed.
End Form.

(** * Names with a line end *)
Definition showQ (q : Q) : string := (digits (Z.to_nat (QArith_base.Qnum q)) ++ "/" ++ digits (Pos.to_nat (Qden q)))%string.
Lemma showQ_plain q : one_line (showQ q) /\ colon_free (showQ q).
Proof. unfold showQ, one_line, colon_free. rewrite !occurs_app, !digits_only by reflexivity. split; reflexivity. Qed.
Definition one_entry : list (list (Qnum * option (constr Qnum))) :=
  [[((1#1)%Q, Some (new_eq ("a: w=1/1, equality, 2x3" ++ nl ++ " - b")%string 4 3))]].
Definition two_entries : list (list (Qnum * option (constr Qnum))) :=
  [[((1#1)%Q, Some (new_eq "a" 2 3)); ((1#1)%Q, Some (new_eq "b" 4 3))]].
Theorem newline_refuted : exists t, forall sm sv, hqp_text (K:=Qnum) showQ sm sv one_entry false = Some t /\
  hqp_text (K:=Qnum) showQ sm sv two_entries false = Some t /\ ~ Forall2 (Forall2 (alike (K:=Qnum) showQ)) one_entry two_entries.
Proof.
  eexists. intros sm sv. split; [vm_compute; reflexivity|]. split; [vm_compute; reflexivity|].
  intros H. inversion H as [|? ? ? ? A _]. inversion A as [|? ? ? ? _ B]. inversion B.
Qed.
(** A problem and its text. *)
Definition three : list (list (Qnum * option (constr Qnum))) :=
  [[((1#1)%Q, Some (new_eq "base-dynamics" 6 11)); ((1#1)%Q, Some (new_bound "limits" 11))]; [((1#10)%Q, Some (new_ineq "task: w=3" 2 11))]].
Theorem three_text sm sv : hqp_text (K:=Qnum) showQ sm sv three false = Some
  ("Level 0" ++ nl ++ " - base-dynamics: w=1/1, equality, 6x11" ++ nl ++ " - limits: w=1/1, bound, 11x11" ++ nl ++
   "Level 1" ++ nl ++ " - task: w=3: w=1/10, inequality, 2x11" ++ nl)%string /\ Forall (Forall plain_name) three.
Proof.
  split; [vm_compute; reflexivity|]. repeat constructor; intros c E; injection E as <-; reflexivity.
Qed.

(** * Writing matrices *)
Fixpoint row_text (show : Q -> string) (n : nat) (f : nat -> Q) : string :=
  match n with 0 => "" | S k => (row_text show k f ++ " " ++ show (f k))%string end.
Fixpoint rows_upto (show : Q -> string) (r n : nat) (f : nat -> nat -> Q) : string :=
  match r with 0 => "" | S k => (rows_upto show k n f ++ (match k with 0 => "" | _ => nl end) ++ row_text show n (f k))%string end.
Definition rows_text (show : Q -> string) (m : mat Qnum) : string := rows_upto show (mrows m) (mcols m) (mget m).
Lemma line_ends_app a b : line_ends (a ++ b)%string = line_ends a + line_ends b.
Proof. induction a as [|x a IH]; cbn [append line_ends]; [reflexivity|]. rewrite IH. lia. Qed.
Lemma ends_one_line s : line_ends s = 0 -> one_line s.
Proof. unfold one_line. induction s as [|x s IH]; cbn [occurs line_ends]; intros H; [reflexivity|]. destruct (Ascii.eqb _ x); [discriminate|]. cbn [orb]. apply IH. exact H. Qed.
Lemma rows_text_lines show : (forall w, one_line (show w)) -> lines_by_size (K:=Qnum) (rows_text show) (fun v => row_text show (vlen v) (vget v)).
Proof.
  intros HS. assert (R : forall n f, line_ends (row_text show n f) = 0).
  { induction n as [|n IH]; intros f; cbn [row_text]; [reflexivity|]. rewrite !line_ends_app, IH, (one_line_ends _ (HS (f n))). reflexivity. }
  split; [intros v; apply ends_one_line, R|]. intros A B ER EC. unfold rows_text. rewrite <- ER, <- EC. clear ER EC. generalize (mget A) (mget B). induction (mrows A) as [|r IH]; intros f g; [reflexivity|].
  cbn [rows_upto]. rewrite !line_ends_app, !R, (IH f g). reflexivity.
Qed.
