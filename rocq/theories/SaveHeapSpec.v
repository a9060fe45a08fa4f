(** * SaveHeapSpec: scops in memory, with the matrices of their relations

    Independent of the programs and of the proofs.  As in FullSpec.v, but every coefficient of the relations of the scop has its place
    in memory (m_relation: MatSpec.v). *)
From stdpp Require Import gmap.
From Verif Require Import Base IntModel VectorModel RelationModel RelSpec StringsModel ExtModel HeapModel HeapObjects HeapSpec RelTextModel ScopModel PayloadSpec MatSpec FullModel FullSpec PrintHeapSpec.

Section SPEC.
Context {cfg : config}.
(** One node of a list of relations. *)
Definition m_node (p e n : ptr) : mem := λ h, h = {[p := CList e n]} ∧ p ≠ NULL.
Definition m_element (p : ptr) (u : list relation) (n : ptr) : mem := somewhere (λ e, m_node p e n ⋆ m_relation e u).
Definition m_relations : ptr → list (list relation) → mem := m_chain m_element.
Definition m_stmt (p : ptr) (s : statement) (n : ptr) : mem :=
  somewhere (λ '(d, c, a, e), cell p (BStmt d c a e n) ⋆
    m_relation d (st_domain s) ⋆ m_relation c (st_scattering s) ⋆ m_relations a (st_access s) ⋆ m_generics e (st_ext s)).
Definition m_stmts : ptr → list statement → mem := m_chain m_stmt.
Definition m_scop_node (p : ptr) (s : scop) (n : ptr) : mem :=
  somewhere (λ '(l, c, pa, st, r, e), cell p (BScop (sc_version s) l c pa st r e n) ⋆
    m_str l (sc_language s) ⋆ m_relation c (sc_context s) ⋆ m_generics pa (sc_params s) ⋆
    m_stmts st (sc_stmts s) ⋆ m_ifaces r (sc_registry s) ⋆ m_generics e (sc_ext s)).
Definition m_scop_list : ptr → list scop → mem := m_chain m_scop_node.

(** The numbers of dimensions of all relations are in order (PrintHeapSpec.v). *)
Definition stmt_in_order (s : statement) : Prop :=
  Forall dims_in_order (st_domain s) ∧ Forall dims_in_order (st_scattering s) ∧ Forall (Forall dims_in_order) (st_access s).
Definition scop_in_order (s : scop) : Prop := Forall dims_in_order (sc_context s) ∧ Forall stmt_in_order (sc_stmts s).
End SPEC.
