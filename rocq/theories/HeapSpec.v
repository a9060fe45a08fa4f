(** * HeapSpec: what it means for a memory to hold a structure

    Independent of the programs and of the separation logic used in the proofs. *)
From stdpp Require Import gmap.
From Verif Require Import Base RelationModel RelSpec HeapModel HeapObjects.

(** [h] consists exactly of the given pieces, which do not overlap. *)
Fixpoint splits (h : heap obj) (pieces : list (heap obj)) : Prop :=
  match pieces with
  | [] => h = ∅
  | h1 :: rest => ∃ h', h = h1 ∪ h' ∧ h1 ##ₘ h' ∧ splits h' rest
  end.

(** [h] is exactly the matrix block of the relation part [r], at address [m]:
    nothing, at NULL, when the part has no row or no column. *)
Definition stores_matrix (h : heap obj) (m : ptr) (r : relation) : Prop :=
  if (nrows r =? 0) || (ncols r =? 0) then h = ∅ ∧ m = NULL ∧ rm r = []
  else h = {[m := CMat (rm r)]} ∧ m ≠ NULL.
(** [h] is exactly the nodes and matrices of the parts [u], chained from address
    [p], the last one being followed by [q]. *)
Fixpoint stores_parts (h : heap obj) (p : ptr) (u : list relation) (q : ptr) : Prop :=
  match u with
  | [] => h = ∅ ∧ p = q
  | r :: u' => ∃ m n hm hn,
      p ≠ NULL ∧ splits h [ {[p := CRel (header r) m n]}; hm; hn ] ∧
      stores_matrix hm m r ∧ stores_parts hn n u' q
  end.
(** [h] is exactly the relation union [u] at address [p] (NULL for the empty union). *)
Definition stores_union (h : heap obj) (p : ptr) (u : list relation) : Prop := stores_parts h p u NULL.
(** [h] is exactly the list [l] of relation unions at address [p]. *)
Fixpoint stores_list (h : heap obj) (p : ptr) (l : list (list relation)) : Prop :=
  match l with
  | [] => h = ∅ ∧ p = NULL
  | u :: l' => ∃ e n he hn,
      p ≠ NULL ∧ splits h [ {[p := CList e n]}; he; hn ] ∧ stores_union he e u ∧ stores_list hn n l'
  end.

(** Started on the memory [h], whatever else [hf] is allocated, [c] ends without
    undefined behaviour, leaves [hf] untouched, and turns [h] into a memory that
    satisfies [Q] together with the result of [c]. *)
Definition runs_to {A} (c : oprog A) (h : heap obj) (Q : A → heap obj → Prop) : Prop :=
  ∀ hf, h ##ₘ hf → ∃ a h', c (h ∪ hf) = Ok (a, h' ∪ hf) ∧ h' ##ₘ hf ∧ Q a h'.

(** The relation list element [u] is one the filter of type [type] keeps. *)
Definition of_type (type : Z) (u : list relation) : Prop :=
  ∃ r u', u = r :: u' ∧ (rtype r = type ∨ (type = TYPE_ACCESS ∧ access_type (rtype r))).
(** [l'] is [l] restricted to the elements satisfying [P], in order. *)
Inductive restricted {A} (P : A → Prop) : list A → list A → Prop :=
| restr_nil : restricted P [] []
| restr_keep a l l' : P a → restricted P l l' → restricted P (a :: l) (a :: l')
| restr_drop a l l' : ¬ P a → restricted P l l' → restricted P (a :: l) l'.
(** The number of elements of [l] that are present (not NULL). *)
Definition present (l : list (list relation)) : Z :=
  Z.of_nat (List.length (List.filter (λ u, match u with [] => false | _ => true end) l)).

(** ** Extensions, statements, scops *)

(** An interface: its URI (absent when NULL) and its functions. *)
Definition iface := (option str * Z)%type.
(** An extension: its data and its interface (absent when NULL). *)
Record gen := Gen { g_data : option Z; g_iface : option iface }.
Record stmt := Stmt { st_domain : list relation; st_scattering : list relation;
                      st_access : list (list relation); st_extension : list gen }.
Record scop := Scop { sc_version : Z; sc_language : option str; sc_context : list relation; sc_parameters : list gen;
                      sc_statement : list stmt; sc_registry : list iface; sc_extension : list gen }.

(** [h] is exactly the interface list [l] at address [p]. *)
Fixpoint stores_ifaces (h : heap obj) (p : ptr) (l : list iface) : Prop :=
  match l with
  | [] => h = ∅ ∧ p = NULL
  | (u, o) :: l' => ∃ n hn, p ≠ NULL ∧ splits h [ {[p := CIface u o n]}; hn ] ∧ stores_ifaces hn n l'
  end.
Definition stores_data (h : heap obj) (p : ptr) (d : option Z) : Prop :=
  match d with
  | None => h = ∅ ∧ p = NULL
  | Some z => h = {[p := CData z]} ∧ p ≠ NULL
  end.
(** The interface of an extension: none, or a list of one element. *)
Definition iface_list (i : option iface) : list iface := match i with None => [] | Some x => [x] end.
(** [h] is exactly the extension list [l] at address [p]. *)
Fixpoint stores_gens (h : heap obj) (p : ptr) (l : list gen) : Prop :=
  match l with
  | [] => h = ∅ ∧ p = NULL
  | g :: l' => ∃ d i n hd hi hn,
      p ≠ NULL ∧ splits h [ {[p := CGen d i n]}; hd; hi; hn ] ∧
      stores_data hd d (g_data g) ∧ stores_ifaces hi i (iface_list (g_iface g)) ∧ stores_gens hn n l'
  end.
(** [h] is exactly the statement list [l] at address [p]. *)
Fixpoint stores_stmts (h : heap obj) (p : ptr) (l : list stmt) : Prop :=
  match l with
  | [] => h = ∅ ∧ p = NULL
  | s :: l' => ∃ d sc a e n hd hs ha he hn,
      p ≠ NULL ∧ splits h [ {[p := CStmt d sc a e n]}; hd; hs; ha; he; hn ] ∧
      stores_union hd d (st_domain s) ∧ stores_union hs sc (st_scattering s) ∧
      stores_list ha a (st_access s) ∧ stores_gens he e (st_extension s) ∧ stores_stmts hn n l'
  end.
(** [h] is exactly the scop list [l] at address [p]. *)
Fixpoint stores_scops (h : heap obj) (p : ptr) (l : list scop) : Prop :=
  match l with
  | [] => h = ∅ ∧ p = NULL
  | s :: l' => ∃ c pa st r e n hc hp hs hr he hn,
      p ≠ NULL ∧
      splits h [ {[p := CScop (sc_version s) (sc_language s) c pa st r e n]}; hc; hp; hs; hr; he; hn ] ∧
      stores_union hc c (sc_context s) ∧ stores_gens hp pa (sc_parameters s) ∧
      stores_stmts hs st (sc_statement s) ∧ stores_ifaces hr r (sc_registry s) ∧
      stores_gens he e (sc_extension s) ∧ stores_scops hn n l'
  end.

(** Started on [h], whatever else is allocated, [c] stops the process with an error. *)
Definition stops {A} (c : oprog A) (h : heap obj) : Prop := ∀ hf, h ##ₘ hf → c (h ∪ hf) = Err.

(** The URI of an extension. *)
Definition g_uri (g : gen) : option str := match g_iface g with Some (Some u, _) => Some u | _ => None end.
(** Interface lists in which every interface has a URI and no URI occurs twice. *)
Definition unique_ifaces (l : list iface) : Prop := Forall (λ x, fst x ≠ None) l ∧ NoDup (map fst l).
(** The same for extension lists. *)
Definition unique_gens (l : list gen) : Prop := Forall (λ g, g_uri g ≠ None) l ∧ NoDup (map g_uri l).
(** [l'] is [l] without its first element that satisfies [P]: nothing changes if there is none. *)
Definition without_first {A} (P : A → Prop) (l l' : list A) : Prop :=
  (Forall (λ a, ¬ P a) l ∧ l' = l) ∨ ∃ l1 a l2, l = l1 ++ a :: l2 ∧ P a ∧ Forall (λ a, ¬ P a) l1 ∧ l' = l1 ++ l2.
(** [a] is the first element of [l] that satisfies [P], if any. *)
Definition first_such {A} (P : A → Prop) (l : list A) (a : option A) : Prop :=
  match a with
  | None => Forall (λ a, ¬ P a) l
  | Some a => ∃ l1 l2, l = l1 ++ a :: l2 ∧ P a ∧ Forall (λ a, ¬ P a) l1
  end.
(** Following [k] next pointers from the extension node [p] leads to the node [q]. *)
Fixpoint gen_at (h : heap obj) (p : ptr) (k : nat) (q : ptr) : Prop :=
  match k with
  | O => p = q
  | S k' => ∃ d i n, h !! p = Some (CGen d i n) ∧ gen_at h n k' q
  end.

(** Histories of an extension list. *)
Inductive gop := GAdd (u : str) (functions data : Z) | GRemove (u : str).
(** The data stored under [u] after a history, most recent operation first: the
    data last added if it has not been removed since. *)
Fixpoint current (recent : list gop) (u : str) : option Z :=
  match recent with
  | [] => None
  | GAdd u' _ z :: before => if decide (u' = u) then Some z else current before u
  | GRemove u' :: before => if decide (u' = u) then None else current before u
  end.
(** A history that never adds a URI already present. *)
Fixpoint legal (recent : list gop) : Prop :=
  match recent with
  | [] => True
  | GAdd u _ _ :: before => current before u = None ∧ legal before
  | GRemove _ :: before => legal before
  end.

(** Well-formed statements and scops: their relations are, and no extension occurs twice. *)
Definition wf_stmt (cfg : config) (s : stmt) : Prop :=
  wf_union cfg (st_domain s) ∧ wf_union cfg (st_scattering s) ∧ Forall (wf_union cfg) (st_access s) ∧ unique_gens (st_extension s).
Definition wf_scop (cfg : config) (s : scop) : Prop :=
  wf_union cfg (sc_context s) ∧ unique_gens (sc_parameters s) ∧ Forall (wf_stmt cfg) (sc_statement s) ∧
  unique_ifaces (sc_registry s) ∧ unique_gens (sc_extension s).

(** The statement executes the iteration [it] at the date [date], for the
    parameters [par]: a missing domain or scattering does not constrain anything. *)
Definition executes (s : stmt) (it date par : list Z) : Prop :=
  (st_domain s = [] ∨ relates_union (st_domain s) it [] par) ∧
  (st_scattering s = [] ∨ relates_union (st_scattering s) date it par).
(** The number of parts, an absent union counting as one. *)
Definition part_count (u : list relation) : nat := Nat.max 1 (List.length u).
(** The statement has at most one part in its domain and in its scattering. *)
Definition union_free (s : stmt) : Prop := (List.length (st_domain s) ≤ 1 ∧ List.length (st_scattering s) ≤ 1)%nat.
(** The statement obtained by keeping the first part of the domain and of the scattering. *)
Definition first_parts (s : stmt) : stmt :=
  Stmt (firstn 1 (st_domain s)) (firstn 1 (st_scattering s)) (st_access s) (st_extension s).
(** The list [l] splits the statement [s]: one statement for each pair of a part
    of the domain and a part of the scattering, all with the accesses and the
    extensions of [s]; together they execute what [s] executes. *)
Definition splits_statement (s : stmt) (l : list stmt) : Prop :=
  List.length l = (part_count (st_domain s) * part_count (st_scattering s))%nat ∧
  Forall (λ x, union_free x ∧ st_access x = st_access s ∧ st_extension x = st_extension s) l ∧
  (∀ it date par, executes s it date par ↔ Exists (λ x, executes x it date par) l).
