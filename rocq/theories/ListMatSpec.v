(** * ListMatSpec: a piece of a union in memory, and what the transformations of statements are to compute

    Independent of the programs and of the proofs; [mem], [⋆], [somewhere], [nothing]: PayloadSpec.v; [m_part]: MatSpec.v. *)
From stdpp Require Import gmap.
From Verif Require Import Base IntModel VectorModel RelationModel HeapModel HeapObjects HeapSpec PayloadSpec MatSpec RelSpec ScopModel.

Section SPEC.
Context {cfg : config}.
(** The parts [u], from the one at [p] up to the address [q] excluded. *)
Fixpoint m_parts (p : ptr) (u : list relation) (q : ptr) : mem :=
  match u with
  | [] => nothing (p = q)
  | r :: u' => somewhere (λ next, m_part p r next ⋆ m_parts next u' q)
  end.
(** The first parts of the elements of a list get the type [t]. *)
Definition first_typed (t : Z) (u : list relation) : list relation :=
  match u with [] => [] | r :: u' => with_type r t :: u' end.
(** The parts of a union one by one, or nothing once when there is no part. *)
Definition singly (u : list relation) : list (list relation) :=
  match u with [] => [[]] | _ => map (λ r, [r]) u end.
(** A statement for every part of the domain and every part of the scattering, in this order; everything else is that of [s]. *)
Definition pieces (s : statement) : list statement :=
  flat_map (λ d, map (λ c, Statement d c (st_access s) (st_ext s)) (singly (st_scattering s))) (singly (st_domain s)).
(** The statement executes the iteration [it] at the date [date], for the parameters [par]: a missing domain or scattering does
    not constrain anything. *)
Definition performs (s : statement) (it date par : list Z) : Prop :=
  (st_domain s = [] ∨ relates_union (st_domain s) it [] par) ∧ (st_scattering s = [] ∨ relates_union (st_scattering s) date it par).
(** The list [l] splits [s]: a statement without unions for each pair of a part of the domain and a part of the scattering, with the
    accesses and the extensions of [s]; together they execute what [s] executes. *)
Definition splits_in (s : statement) (l : list statement) : Prop :=
  List.length l = (part_count (st_domain s) * part_count (st_scattering s))%nat ∧
  Forall (λ x, (List.length (st_domain x) ≤ 1)%nat ∧ (List.length (st_scattering x) ≤ 1)%nat ∧ st_access x = st_access s ∧ st_ext x = st_ext s) l ∧
  (∀ it date par, performs s it date par ↔ Exists (λ x, performs x it date par) l).
End SPEC.
