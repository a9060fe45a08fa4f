(** * UnionsMatSpec: what osl_scop_remove_unions is to compute, and what it loses

    Independent of the programs and of the proofs; [pieces]: ListMatSpec.v; [mem], [⋆], [somewhere]: PayloadSpec.v. *)
From stdpp Require Import gmap.
From Verif Require Import Base IntModel VectorModel RelationModel HeapModel HeapObjects HeapSpec PayloadSpec MatSpec ScopModel SaveHeapSpec ListMatSpec.

Section SPEC.
Context {cfg : config}.
(** Of every statement but the last, the first piece only; all those of the last one. *)
Fixpoint kept_pieces (l : list statement) : list statement :=
  match l with [] => [] | [s] => pieces s | s :: l' => firstn 1 (pieces s) ++ kept_pieces l' end.
(** The other pieces, which nothing refers to, statement by statement. *)
Fixpoint lost_pieces (l : list statement) : list (list statement) :=
  match l with [] => [] | [s] => [] | s :: l' => tl (pieces s) :: lost_pieces l' end.
Definition lost_scops (l : list scop) : list (list statement) := flat_map (λ s, lost_pieces (sc_stmts s)) l.
Definition kept_scop (s : scop) : scop :=
  Scop (sc_version s) (sc_language s) (sc_context s) (sc_params s) (kept_pieces (sc_stmts s)) (sc_registry s) (sc_ext s).
(** Lists of statements somewhere in memory. *)
Fixpoint m_stray (ls : list (list statement)) : mem :=
  match ls with [] => nothing True | l :: ls' => somewhere (λ p, m_stmts p l) ⋆ m_stray ls' end.
(** At most one part in the domain and in the scattering. *)
Definition no_union (s : statement) : Prop := (List.length (st_domain s) ≤ 1 ∧ List.length (st_scattering s) ≤ 1)%nat.
End SPEC.
