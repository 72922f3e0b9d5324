(** What the constructors and setters of the contacts store and which sizes they need. *)
From Coq Require Import String List Arith Bool QArith Lia.
From Verif Require Import Scalar Outcome Linalg Constraint Contacts ContactSpec ContactProofs.
Import ListNotations.
Open Scope list_scope.
Open Scope nat_scope.

(** Arguments with which the constructor is defined: four points and a normal in R^3; in a
    release build further points are ignored. *)
Definition fits {K : num} (k : kind) (dbg : bool) (P : mat K) (n : vec K) : Prop :=
  match k with
  | K6 => mrows P = 3 /\ 4 <= mcols P /\ (dbg = true -> mcols P = 4) /\ vlen n = 3
  | KP => vlen n = 3
  | K2 => True
  end.
(** Default weights of the force regularisation. *)
Definition default_weights (k : kind) : list Q :=
  match k with
  | K6 => [1; 1; 1 # 1000; 2; 2; 2]%Q
  | KP => [1; 1; 1 # 1000]%Q
  | K2 => [1; 1; 1]%Q
  end.
Definition lists {K : num} (v : vec K) (l : list Q) : Prop :=
  vlen v = length l /\ forall i, i < length l -> vget v i = nofQ (nth i l 0%Q).

Section Init.
Context {K : num}.
Variable sq : K -> K.
Lemma guard_fits k dbg (P : mat K) n :
  match k with
  | K6 => guard ((mrows P =? 3) && (4 <=? mcols P) && (negb dbg || (mcols P =? 4)) && (vlen n =? 3))
  | KP => guard (vlen n =? 3)
  | K2 => Some tt
  end = Some tt <-> fits k dbg P n.
Proof.
  destruct k; cbn [fits]; unfold guard.
  - destruct (Nat.eqb_spec (mrows P) 3), (Nat.leb_spec 4 (mcols P)), (Nat.eqb_spec (vlen n) 3), (Nat.eqb_spec (mcols P) 4), dbg; cbn;
      (split; [intros; try discriminate; repeat split; intros; try lia; congruence|intros (? & ? & F & ?); try reflexivity; try lia]);
      specialize (F eq_refl); lia.
  - destruct (Nat.eqb_spec (vlen n) 3); split; intros; congruence.
  - tauto.
Qed.
Lemma gen_size k (G P : mat K) : mrows G = 6 -> mcols G = 12 -> mrows (force_gen k G P) = nreg k /\ mcols (force_gen k G P) = nforce k.
Proof. destruct k; cbn; auto. Qed.
Theorem contact_initial k dbg jk name P n mu fmin fmax :
  ((exists s, cont_new sq k dbg jk name P n mu fmin fmax = Some s) <-> fits k dbg P n) /\
  forall s, cont_new sq k dbg jk name P n mu fmin fmax = Some s ->
    k_n s = n /\ k_mu s = mu /\ k_fmin s = fmin /\ k_fmax s = fmax /\
    lists (k_w s) (default_weights k) /\ vlen (k_fref s) = length (default_weights k) /\ (forall i, vget (k_fref s) i = n0) /\
    match k with K6 => k_pts s = P | _ => mrows (k_pts s) = 3 /\ mcols (k_pts s) = 1 /\ forall i j, mget (k_pts s) i j = n0 end /\
    c_name (k_ineq s) = name /\ c_name (k_reg s) = name.
Proof.
  pose proof (guard_fits k dbg P n) as G. unfold cont_new.
  destruct (match k with K6 => guard _ | KP => guard _ | K2 => _ end) as [[]|].
  2:{ split; [split; [intros [s H]; discriminate|intros F; apply G in F; discriminate]|]. intros s H; discriminate. }
  cbn [obind].
  set (w := match k with K6 => _ | KP => _ | K2 => _ end). set (pts := match k with K6 => P | _ => _ end).
  assert (R : exists r, force_reg k name w (vzero (nreg k)) (force_gen k (mkMat 6 12 jk) pts) = Some r /\ c_name r = name).
  { destruct k; subst w pts; eexists; split; reflexivity. }
  destruct R as (r & -> & N). cbn [obind]. split.
  - split; [intros _; apply G; reflexivity|eauto].
  - intros s H; injection H as <-. cbn [k_n k_mu k_fmin k_fmax k_w k_fref k_pts k_ineq k_reg].
    do 4 (split; [reflexivity|]). split.
    { destruct k; subst w; split; try reflexivity; cbn [default_weights length]; intros i Hi;
        do 6 (destruct i as [|i]; [reflexivity || lia|]); lia. }
    split; [destruct k; reflexivity|]. split; [reflexivity|].
    split; [destruct k; subst pts; try reflexivity; repeat split|]. split; [apply ineq_name|exact N].
Qed.

(** Setters of the regularisation: wrong sizes. *)
Theorem wrong_size k (s : cont K) v : vlen v <> nreg k ->
  cstep sq k s (SetFref k v) = match k with KP => Exc s | _ => Undef end /\ cstep sq k s (SetWeights k v) = Undef.
Proof.
  intros H. cbn [cstep]. apply Nat.eqb_neq in H. split; [|rewrite H; reflexivity].
  destruct k; cbn [nreg] in H |- *; rewrite H; reflexivity.
Qed.
Theorem normal_force_size k (s : cont K) f : k <> K2 -> vlen f <> nforce k -> normal_force k s f = Exc s.
Proof. intros Hk H. apply Nat.eqb_neq in H. destruct k; [| |congruence]; cbn [normal_force]; rewrite H; reflexivity. Qed.
(** Accepted calls change the named parameter only. *)
Theorem stored_all k (s : cont K) (o : cop K k) s' r : cstep sq k s o = Ret s' r ->
  (k <> K2 -> k_n s' = match o with SetNormal _ n => n | _ => k_n s end /\
              k_mu s' = match o with SetMu _ m => m | _ => k_mu s end) /\
  k_fmin s' = match o with SetMin _ f => f | _ => k_fmin s end /\
  k_fmax s' = match o with SetMax _ f => f | _ => k_fmax s end /\
  k_pts s' = match o with SetPoints P => P | _ => k_pts s end /\
  k_fref s' = match o with SetFref _ f => f | _ => k_fref s end /\
  k_w s' = match o with SetWeights _ w => w | _ => k_w s end.
Proof.
  destruct o as [P|k n|k mu|k f|k f|k f|k w]; cbn [cstep]; unfold check_arg, refresh_reg;
    repeat match goal with
      | |- context [match ?x with K6 => _ | KP => _ | K2 => _ end] => destruct x
      | |- context [if ?x then _ else _] => destruct x
      | |- context [match force_reg ?a ?b ?c ?d ?e with Some _ => _ | None => _ end] => destruct (force_reg a b c d e)
      end; try discriminate; intros H; injection H as <- _; repeat split; congruence.
Qed.
End Init.
