(** * EqualSpec: when statements and scops are the same, for the user *)
From stdpp Require Import gmap.
From Verif Require Import Base RelationModel RelSpec HeapModel HeapObjects HeapSpec.

(** Same relations; same extensions, in any order. *)
Record same_stmt (s1 s2 : stmt) : Prop := {
  ss_domain : st_domain s1 = st_domain s2;
  ss_scattering : st_scattering s1 = st_scattering s2;
  ss_access : st_access s1 = st_access s2;
  ss_extension : st_extension s1 ≡ₚ st_extension s2 }.
(** Same contents; same parameters and extensions, in any order.  The registries are left out. *)
Record same_scop (s1 s2 : scop) : Prop := {
  sc_same_version : sc_version s1 = sc_version s2;
  sc_same_language : sc_language s1 = sc_language s2;
  sc_same_context : sc_context s1 = sc_context s2;
  sc_same_parameters : sc_parameters s1 ≡ₚ sc_parameters s2;
  sc_same_statement : Forall2 same_stmt (sc_statement s1) (sc_statement s2);
  sc_same_extension : sc_extension s1 ≡ₚ sc_extension s2 }.
(** The registries begin with the same interface. *)
Definition same_first_iface (s1 s2 : scop) : Prop := head (sc_registry s1) = head (sc_registry s2).
(** What osl_scop_equal can compare: a language on both sides, and statements on both sides or on none. *)
Definition comparable (s1 s2 : scop) : Prop :=
  sc_language s1 ≠ None ∧ sc_language s2 ≠ None ∧ (sc_statement s1 = [] ↔ sc_statement s2 = []).
(** The scops of two lists can be compared pairwise, as far as the shorter one goes. *)
Fixpoint comparable_all (l1 l2 : list scop) : Prop :=
  match l1, l2 with
  | s1 :: l1', s2 :: l2' => comparable s1 s2 ∧ comparable_all l1' l2'
  | _, _ => True
  end.
