(** * IrregHeapSpec: a memory that holds an irregular extension *)
From stdpp Require Import gmap.
From Verif Require Import Base HeapModel HeapObjects HeapSpec PayloadSpec IrregModel.

(** An array of the pointers [ps]: an empty one may be NULL. *)
Definition m_pointers (p : ptr) (ps : list ptr) : mem :=
  if Z.eqb p NULL then nothing (ps = []) else cell p (BPtrs (map Some ps)).
(** The values [l], at the addresses [ps]. *)
Fixpoint m_each {X} (m : ptr → X → mem) (ps : list ptr) (l : list X) : mem :=
  match ps, l with
  | [], [] => nothing True
  | p :: ps, x :: l => m p x ⋆ m_each m ps l
  | _, _ => nothing False
  end.
(** The iterators of a predicate: an array of strings. *)
Definition m_iterators (t : ptr) (l : list (option str)) : mem := somewhere (λ ps, m_table t ps l).
Definition count {A} (l : list A) : Z := Z.of_nat (List.length l).
(** The whole structure; the predicates are the control predicates, then the exit predicates. *)
Definition m_irregular (p : ptr) (x : irregular) : mem :=
  somewhere (λ '(ni, it, bo, np, pr, ts, bs, qs),
    cell p (BIrregular (ir_control x) (ir_exit x) ni it bo (count (ir_statements x)) np pr) ⋆
    nothing (0 ≤ ir_control x ∧ 0 ≤ ir_exit x ∧ count (ir_predicates x) = ir_control x + ir_exit x) ⋆
    m_ints ni (map (λ y, count (pd_iterators y)) (ir_predicates x)) ⋆
    m_pointers it ts ⋆ m_each m_iterators ts (map pd_iterators (ir_predicates x)) ⋆
    m_pointers bo bs ⋆ m_each m_str bs (map pd_body (ir_predicates x)) ⋆
    m_ints np (map count (ir_statements x)) ⋆
    m_pointers pr qs ⋆ m_each m_ints qs (ir_statements x)).
(** NULL is no structure. *)
Definition m_irregular_or_null (p : ptr) (x : option irregular) : mem :=
  match x with None => nothing (p = NULL) | Some x => m_irregular p x end.

(** [m] describes a part of the memory [h]. *)
Definition within (h : heap obj) (m : mem) : Prop := ∃ h', h' ⊆ h ∧ m h'.
(** The program makes a new structure in memory of its own and changes nothing else. *)
Definition makes {X} (c : oprog ptr) (h : heap obj) (m : ptr → X → mem) (x : X) : Prop :=
  runs_to c h (λ q h', ∃ hc, splits h' [h; hc] ∧ m q x hc).
(** Every continuation from a memory that contains [h] has undefined behaviour. *)
Definition undefined {A} (c : oprog A) (h : heap obj) : Prop := ∀ hf, h ##ₘ hf → c (h ∪ hf) = UB.

(** What the additions make of a structure. *)
Definition with_control (x : irregular) (its : list str) (body : str) : irregular :=
  let k := Z.to_nat (ir_control x) in
  Irregular (ir_statements x) (ir_control x + 1) (ir_exit x)
    (firstn k (ir_predicates x) ++ Predicate (map Some its) (Some body) :: skipn k (ir_predicates x)).
Definition with_exit (x : irregular) (its : list str) (body : str) : irregular :=
  Irregular (ir_statements x) (ir_control x) (ir_exit x + 1) (ir_predicates x ++ [Predicate (map Some its) (Some body)]).
Definition with_statement (x : irregular) (guards : list Z) : irregular :=
  Irregular (ir_statements x ++ [guards]) (ir_control x) (ir_exit x) (ir_predicates x).
