(** * MatSpec: what it means for a memory to hold coefficients, vectors and relations with their matrices

    Independent of the programs and of the proofs; [mem], [cell], [⋆], [somewhere], [nothing]: PayloadSpec.v. *)
From stdpp Require Import gmap.
From Verif Require Import Base IntModel VectorModel RelationModel HeapModel HeapObjects HeapSpec PayloadSpec.

Section SPEC.
Context {cfg : config}.

(** An osl_int_t that holds [z] in precision [p]: the number itself, or the address of a GMP number, which owns two blocks. *)
Definition m_coef (p : Z) (c : coef) (z : Z) : mem :=
  nothing (osl_int_is_precision_supported p = true) ⋆
  (if Z.eqb p PRECISION_MP
   then somewhere (λ '(q, d), nothing (c = Mp q) ⋆ cell q (BMpz d) ⋆ cell d (BLimbs z))
   else nothing (c = Num p z)).
Fixpoint m_coefs (p : Z) (cs : list coef) (l : list Z) : mem :=
  match cs, l with
  | [], [] => nothing True
  | c :: cs, z :: l => m_coef p c z ⋆ m_coefs p cs l
  | _, _ => nothing False
  end.
(** An array of osl_int_t. *)
Definition m_array (p : Z) (b : ptr) (l : list Z) : mem :=
  somewhere (λ cs, cell b (BCells (map Some cs)) ⋆ m_coefs p cs l).

(** A vector: no array when it is empty. *)
Definition m_vector (a : ptr) (v : vector) : mem :=
  somewhere (λ b, cell a (BVector (vsize v) (vprec v) b) ⋆ nothing (vsize v = zlength (vv v)) ⋆
    (if Z.eqb (vsize v) 0 then nothing (b = NULL) else m_array (vprec v) b (vv v))).

(** A matrix of [rows] rows and [cols] columns, one after the other in one array; nothing when it has no element. *)
Definition row_starts (q : ptr) (rows cols : Z) : list (option (ptr * Z)) :=
  map (λ i, Some (q, Z.of_nat i * cols)%Z) (seq 0 (Z.to_nat rows)).
Definition m_matrix (p : Z) (m : ptr) (rows cols : Z) (mat : list (list Z)) : mem :=
  if Z.eqb rows 0 || Z.eqb cols 0 then nothing (m = NULL ∧ mat = [])
  else somewhere (λ q, cell m (BRows (row_starts q rows cols)) ⋆ m_array p q (concat mat) ⋆
         nothing (zlength mat = rows ∧ Forall (λ row, zlength row = cols) mat)).
(** One part of a relation; the next one is at [next]. *)
Definition m_part (a : ptr) (r : relation) (next : ptr) : mem :=
  somewhere (λ m, cell a (BRel (with_m r (nrows r) (ncols r) []) m next) ⋆ nothing (0 ≤ nrows r ∧ 0 ≤ ncols r)%Z ⋆
    m_matrix (rprec r) m (nrows r) (ncols r) (rm r)).
(** A relation: its parts in order. *)
Fixpoint m_relation (a : ptr) (l : list relation) : mem :=
  match l with
  | [] => nothing (a = NULL)
  | r :: l' => somewhere (λ next, m_part a r next ⋆ m_relation next l')
  end.

(** [h] and nothing else. *)
Definition exactly (h : heap obj) : mem := λ h', h' = h.
(** Somewhere in [h] there is an [m] (it may overlap with others). *)
Definition within (h : heap obj) (m : mem) : Prop := ∃ hs, hs ⊆ h ∧ m hs.
(** The program [c], started on [h], does what the value-level function answers: it returns when [v] is a
    value, and the memory is then as [Q] says; it stops when [v] is an error.  Nothing is said when [v] has no
    defined value. *)
Definition agrees {A B} (v : res B) (c : oprog A) (h : heap obj) (Q : B → A → mem) : Prop :=
  match v with Ok b => runs_to c h (Q b) | Err => stops c h | _ => True end.
End SPEC.
