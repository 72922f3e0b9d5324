(** C101: the text of a problem tells its structure. *)
From Coq Require Import String List Arith Bool QArith.
From Verif Require Import Scalar Outcome Linalg Constraint Formulation FormMain SolverText.
Import ListNotations.
Open Scope nat_scope.

(** Problems with the same text have the same levels, with the same constraints in the same
    order, as far as names, classes, sizes and written weights go. *)
Theorem C101_tells (K : num) (show : K -> string) (show_mat : mat K -> string) (show_vec : vec K -> string)
  (p p' : list (list (K * option (constr K)))) (t : string) :
  (forall w, one_line (show w) /\ colon_free (show w)) ->
  Forall (Forall plain_name) p -> Forall (Forall plain_name) p' ->
  hqp_text show show_mat show_vec p false = Some t -> hqp_text show show_mat show_vec p' false = Some t ->
  Forall2 (Forall2 (alike show)) p p'.
Proof. exact (fun H => text_tells show H show_mat show_vec p p' t). Qed.
Print Assumptions C101_tells.

(** With the matrices, the matrices and vectors are written in the same way as well. *)
Theorem C101_tells_matrices (K : num) (show : K -> string) (show_mat : mat K -> string) (show_vec : vec K -> string)
  (p p' : list (list (K * option (constr K)))) (t : string) :
  (forall w, one_line (show w) /\ colon_free (show w)) -> lines_by_size show_mat show_vec ->
  Forall (Forall plain_name) p -> Forall (Forall plain_name) p' ->
  hqp_text show show_mat show_vec p true = Some t -> hqp_text show show_mat show_vec p' true = Some t ->
  Forall2 (Forall2 (alike show)) p p' /\ Forall2 (Forall2 (same_numbers show_mat show_vec)) p p'.
Proof. exact (fun H => text_tells_full show H show_mat show_vec p p' t). Qed.
Print Assumptions C101_tells_matrices.

(** print() of the Python object. *)
Theorem C101_print (K : num) (show : K -> string) (p p' : list (list (K * option (constr K)))) (t : string) :
  (forall w, one_line (show w) /\ colon_free (show w)) ->
  Forall (Forall plain_name) p -> Forall (Forall plain_name) p' ->
  py_print show p = Some t -> py_print show p' = Some t -> Forall2 (Forall2 (alike show)) p p'.
Proof. exact (fun H => print_tells show H p p' t). Qed.
Print Assumptions C101_print.

(** The problem of a formulation can be written at any time. *)
Theorem C101_defined (K : num) (show : K -> string) (show_mat : mat K -> string) (show_vec : vec K -> string) dbg
  nv na (M0 : mat K) (H0 : vec K) (s : fstate K) (m : bool) :
  mrows M0 = nv -> mcols M0 = nv -> vlen H0 = nv -> reach (step dbg) (good dbg) (init nv na M0 H0) s ->
  exists t, hqp_text show show_mat show_vec (hqp s) m = Some t.
Proof. exact (text_defined show show_mat show_vec dbg nv na M0 H0 s m). Qed.
Print Assumptions C101_defined.

(** A name with a line end can make one constraint look like two. *)
Theorem C101_newline_refuted : exists t, forall sm sv, hqp_text (K:=Qnum) showQ sm sv one_entry false = Some t /\
  hqp_text (K:=Qnum) showQ sm sv two_entries false = Some t /\ ~ Forall2 (Forall2 (alike (K:=Qnum) showQ)) one_entry two_entries.
Proof. exact newline_refuted. Qed.
Print Assumptions C101_newline_refuted.

Example C101_case : (forall q, one_line (showQ q) /\ colon_free (showQ q)) /\ forall sm sv,
  hqp_text (K:=Qnum) showQ sm sv three false = Some
  ("Level 0" ++ nl ++ " - base-dynamics: w=1/1, equality, 6x11" ++ nl ++ " - limits: w=1/1, bound, 11x11" ++ nl ++
   "Level 1" ++ nl ++ " - task: w=3: w=1/10, inequality, 2x11" ++ nl)%string /\ Forall (Forall plain_name) three.
Proof. exact (conj showQ_plain three_text). Qed.

(** An operator<< that meets the condition: a row on each line. *)
Example C101_lines (show : Q -> string) : (forall w, one_line (show w)) ->
  lines_by_size (K:=Qnum) (rows_text show) (fun v => row_text show (vlen v) (vget v)).
Proof. exact (rows_text_lines show). Qed.
