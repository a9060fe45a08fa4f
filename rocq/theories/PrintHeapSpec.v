(** * PrintHeapSpec: the names that printing uses

    Independent of the programs and of the proofs. *)
From stdpp Require Import gmap.
From Verif Require Import Base VectorModel RelationModel StringsModel HeapModel HeapObjects HeapSpec PayloadSpec MatSpec.
Local Open Scope Z_scope.

Section SPEC.
Context {cfg : config}.
(** The names object at [pn] gives the names [n]; its lists of names are somewhere in [h], and may be shared. *)
Definition names_at (h : heap obj) (pn : ptr) (n : names) : Prop :=
  ∃ a b c d e, h !! pn = Some (CBlock (BNames a b c d e)) ∧
    within h (m_strings a (Some (n_params n))) ∧ within h (m_strings b (Some (n_iters n))) ∧ within h (m_strings c (Some (n_scatt n))) ∧
    within h (m_strings d (Some (n_locals n))) ∧ within h (m_strings e (Some (n_arrays n))).
(** No names are given by a null pointer. *)
Definition names_given (h : heap obj) (pn : ptr) (on : option names) : Prop :=
  match on with None => pn = NULL | Some n => pn ≠ NULL ∧ names_at h pn n end.
(** The numbers of dimensions of a part are not negative, and an access has an output dimension (for the array identifier). *)
Definition dims_in_order (r : relation) : Prop :=
  0 ≤ nout r ∧ 0 ≤ nin r ∧ 0 ≤ nloc r ∧ 0 ≤ npar r ∧ (osl_relation_is_access r = true → 1 ≤ nout r).
End SPEC.
