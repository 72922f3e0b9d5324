(** List and string lemmas. *)
From Coq Require Import String Ascii List Arith Bool Lia Permutation.
From Verif Require Import Outcome.
Import ListNotations.
Open Scope list_scope.

Lemma nth_error_split_lupd {A} (l : list A) i x y :
  nth_error l i = Some x ->
  exists l1 l2, l = l1 ++ x :: l2 /\ lupd l i y = l1 ++ y :: l2 /\ length l1 = i.
Proof.
  revert i; induction l as [|a l IH]; intros [|i] H; simpl in *; try discriminate.
  - inversion H; subst. exists [], l; auto.
  - destruct (IH _ H) as (l1 & l2 & -> & -> & E).
    exists (a :: l1), l2; simpl; auto.
Qed.

Lemma concat_lupd {A} (ls : list (list A)) i x y :
  nth_error ls i = Some x ->
  Permutation (concat (lupd ls i y) ++ x) (concat ls ++ y).
Proof.
  intros H. destruct (nth_error_split_lupd ls i x y H) as (l1 & l2 & -> & -> & _).
  rewrite !concat_app; simpl.
  rewrite <- !app_assoc. apply Permutation_app_head.
  rewrite (Permutation_app_comm y), (Permutation_app_comm x).
  rewrite <- !app_assoc. apply Permutation_app_head.
  apply Permutation_app_comm.
Qed.

Lemma concat_push {A} (ls : list (list A)) i x e :
  nth_error ls i = Some x ->
  Permutation (concat (lupd ls i (x ++ [e]))) (e :: concat ls).
Proof.
  intros H. assert (P := concat_lupd ls i x (x ++ [e]) H).
  apply Permutation_app_inv_r with (l := x). rewrite P.
  simpl. rewrite (Permutation_app_comm x [e]). simpl.
  rewrite <- Permutation_middle. reflexivity.
Qed.

Lemma concat_drop {A} (ls : list (list A)) i l1 e l2 :
  nth_error ls i = Some (l1 ++ e :: l2) ->
  Permutation (concat ls) (e :: concat (lupd ls i (l1 ++ l2))).
Proof.
  intros H. assert (P := concat_lupd ls i (l1 ++ e :: l2) (l1 ++ l2) H).
  apply Permutation_app_inv_r with (l := l1 ++ l2). rewrite <- P.
  rewrite <- (Permutation_middle l1 l2 e). simpl.
  rewrite <- Permutation_middle. reflexivity.
Qed.

Lemma concat_grow_nil {A} (ls : list (list A)) n : concat (ls ++ repeat [] n) = concat ls.
Proof.
  rewrite concat_app. replace (concat (repeat [] n)) with (@nil A); [apply app_nil_r|].
  induction n; simpl; auto.
Qed.

Lemma nth_error_app_new {A} (l : list A) x : nth_error (l ++ [x]) (length l) = Some x.
Proof. rewrite nth_error_app2, Nat.sub_diag by lia; reflexivity. Qed.
Lemma nth_error_app_old {A} (l : list A) x i y :
  nth_error l i = Some y -> nth_error (l ++ [x]) i = Some y.
Proof.
  intros H. rewrite nth_error_app1; [exact H|].
  apply nth_error_Some; congruence.
Qed.

Lemma map_lupd {A B} (f : A -> B) l i x : map f (lupd l i x) = lupd (map f l) i (f x).
Proof. revert i; induction l as [|a l IH]; intros [|i]; simpl; auto. f_equal; auto. Qed.

Lemma lupd_same {A} (l : list A) i x : nth_error l i = Some x -> lupd l i x = l.
Proof.
  revert i; induction l as [|a l IH]; intros [|i] H; simpl in *; try discriminate.
  - congruence.
  - f_equal; auto.
Qed.

Lemma lupd_lupd {A} (l : list A) i x y : lupd (lupd l i x) i y = lupd l i y.
Proof. revert i; induction l as [|a l IH]; intros [|i]; simpl; auto. f_equal; auto. Qed.

Lemma nth_error_nth0 {A} (l : list (list A)) x : nth_error l 0 = Some x -> nth 0 l [] = x.
Proof. destruct l; simpl; congruence. Qed.

(** Strings as lists of characters. *)
Lemma append_list (a b : string) :
  list_ascii_of_string (a ++ b) = list_ascii_of_string a ++ list_ascii_of_string b.
Proof. induction a; simpl; congruence. Qed.

Lemma los_inj a b : list_ascii_of_string a = list_ascii_of_string b -> a = b.
Proof.
  intros H. rewrite <- (string_of_list_ascii_of_string a), H.
  apply string_of_list_ascii_of_string.
Qed.

Lemma append_inj_r (a b s : string) : (a ++ s = b ++ s)%string -> a = b.
Proof.
  intros H. apply (f_equal list_ascii_of_string) in H.
  rewrite !append_list in H. apply app_inv_tail in H. apply los_inj; exact H.
Qed.

Lemma rev_append_suffix (a s : string) :
  rev (list_ascii_of_string (a ++ s)) =
  rev (list_ascii_of_string s) ++ rev (list_ascii_of_string a).
Proof. rewrite append_list, rev_app_distr; reflexivity. Qed.

(** Two strings with different endings of the same length differ. *)
Lemma suffix_neq (a b s t : string) n :
  firstn n (rev (list_ascii_of_string s)) <> firstn n (rev (list_ascii_of_string t)) ->
  n <= String.length s -> n <= String.length t ->
  (a ++ s <> b ++ t)%string.
Proof.
  intros H Hs Ht E. apply H.
  apply (f_equal (fun x => firstn n (rev (list_ascii_of_string x)))) in E.
  rewrite !rev_append_suffix in E.
  assert (L : forall x, length (list_ascii_of_string x) = String.length x)
    by (induction x; simpl; congruence).
  rewrite !firstn_app in E.
  rewrite !rev_length, !L in E.
  replace (n - String.length s) with 0 in E by lia.
  replace (n - String.length t) with 0 in E by lia.
  rewrite !firstn_O, !app_nil_r in E. exact E.
Qed.

Lemma Permutation_NoDup_map {A B} (f : A -> B) l l' :
  Permutation l l' -> NoDup (map f l) -> NoDup (map f l').
Proof. intros P. apply Permutation_NoDup, Permutation_map, P. Qed.

Lemma NoDup_map_inj {A B} (f : A -> B) l x y :
  NoDup (map f l) -> In x l -> In y l -> f x = f y -> x = y.
Proof.
  induction l as [|a l IH]; simpl; intros N Hx Hy E; [contradiction|].
  inversion N as [|? ? Hn N']; subst.
  destruct Hx as [->|Hx], Hy as [->|Hy]; auto.
  - exfalso; apply Hn. rewrite E. apply in_map; exact Hy.
  - exfalso; apply Hn. rewrite <- E. apply in_map; exact Hx.
Qed.

Lemma map_ext_in' {A B} (f g : A -> B) l : (forall x, In x l -> f x = g x) -> map f l = map g l.
Proof. apply map_ext_in. Qed.
