(** * PayloadSpec: what it means for a memory to hold strings, vectors and extension data

    Independent of the programs and of the separation logic used in the proofs. *)
From stdpp Require Import gmap.
From Verif Require Import Base VectorModel RelationModel RelSpec StringsModel ExtModel HeapModel HeapObjects HeapSpec.

(** ** Pieces of memory *)
Definition mem := heap obj → Prop.
(** No memory at all; [φ] holds. *)
Definition nothing (φ : Prop) : mem := λ h, h = ∅ ∧ φ.
(** One block. *)
Definition cell (p : ptr) (b : block) : mem := λ h, h = {[p := CBlock b]} ∧ p ≠ NULL.
(** Two pieces that do not overlap, and nothing else. *)
Definition beside (P Q : mem) : mem := λ h, ∃ h1 h2, h = h1 ∪ h2 ∧ h1 ##ₘ h2 ∧ P h1 ∧ Q h2.
Definition somewhere {A} (P : A → mem) : mem := λ h, ∃ x, P x h.
Notation "P ⋆ Q" := (beside P Q) (at level 80, right associativity).

(** A string; NULL is no string. *)
Definition m_str (p : ptr) (s : option str) : mem :=
  match s with None => nothing (p = NULL) | Some s => cell p (BStr s) end.
(** The strings [l], at the addresses [ps]. *)
Fixpoint m_strs (ps : list ptr) (l : list (option str)) : mem :=
  match ps, l with
  | [], [] => nothing True
  | p :: ps, s :: l => m_str p s ⋆ m_strs ps l
  | _, _ => nothing False
  end.
(** An array of numbers: an empty one may be NULL. *)
Definition m_ints (p : ptr) (l : list Z) : mem :=
  if Z.eqb p NULL then nothing (l = []) else cell p (BInts (map Some l)).
(** An array of pointers to the strings [l]: an empty one may be NULL. *)
Definition m_table (p : ptr) (ps : list ptr) (l : list (option str)) : mem :=
  (if Z.eqb p NULL then nothing (ps = []) else cell p (BPtrs (map Some ps))) ⋆ m_strs ps l.

(** ** Vectors: the array is missing when it would be empty *)
Definition stores_vector (h : heap obj) (p : ptr) (v : vector) : Prop :=
  somewhere (λ a, cell p (BVector (vsize v) (vprec v) a) ⋆ m_ints a (vv v) ⋆
                  nothing (vsize v = Z.of_nat (List.length (vv v)) ∧ (a = NULL ↔ vv v = []))) h.

(** ** Strings: the array ends with NULL *)
Definition m_strings (p : ptr) (x : option strings) : mem :=
  match x with
  | None => nothing (p = NULL)
  | Some None => cell p (BStrings NULL)
  | Some (Some l) => somewhere (λ '(a, ps), cell p (BStrings a) ⋆ cell a (BPtrs (map Some (ps ++ [NULL]))) ⋆ m_strs ps (map Some l))
  end.
Definition stores_strings (h : heap obj) (p : ptr) (x : option strings) : Prop := m_strings p x h.

(** ** Bodies *)
Definition m_body (p : ptr) (x : option body) : mem :=
  match x with
  | None => nothing (p = NULL)
  | Some b => somewhere (λ '(i, e), cell p (BBody i e) ⋆ m_strings i (bo_iterators b) ⋆ m_strings e (bo_expression b))
  end.
Definition m_extbody (p : ptr) (x : extbody) : mem :=
  somewhere (λ '(s, l, b), cell p (BExtbody (Z.of_nat (List.length (eb_access x))) s l b) ⋆
    m_ints s (map fst (eb_access x)) ⋆ m_ints l (map snd (eb_access x)) ⋆ m_body b (eb_body x)).

(** ** The other extensions *)
Definition m_arrays (p : ptr) (x : arrays) : mem :=
  somewhere (λ '(i, n, ps), cell p (BArrays (Z.of_nat (List.length x)) i n) ⋆
    m_ints i (map fst x) ⋆ m_table n ps (map (λ e, Some (snd e)) x)).
(** comment, clay, textual *)
Definition m_comment (p : ptr) (x : option str) : mem := somewhere (λ t, cell p (BHolder t) ⋆ m_str t x).
Definition m_scatnames (p : ptr) (x : scatnames) : mem := somewhere (λ n, cell p (BScatnames n) ⋆ m_strings n x).
Definition m_coordinates (p : ptr) (x : coordinates) : mem :=
  somewhere (λ n, cell p (BCoordinates n (co_line_start x) (co_line_end x) (co_column_start x) (co_column_end x) (co_indent x)) ⋆
    m_str n (co_name x)).
Definition m_scatinfos (p : ptr) (x : scatinfos) : mem :=
  somewhere (λ '(a, b, c), cell p (BScatinfos (Z.of_nat (List.length x)) a b c) ⋆
    m_ints a (map si_parallel x) ⋆ m_ints b (map si_permutable x) ⋆ m_ints c (map si_type x)).
(** A text inside its owner: the memory it refers to. *)
Definition m_text (t : textrec) (ps : list ptr) (x : text_lines) : mem :=
  nothing (t_count t = Z.of_nat (List.length x)) ⋆ m_ints (t_types t) (map fst x) ⋆ m_table (t_lines t) ps (map snd x).
Definition m_annotation (p : ptr) (x : annotation) : mem :=
  somewhere (λ '(t, u, ps, qs), cell p (BAnnotation t u) ⋆ m_text t ps (an_prefix x) ⋆ m_text u qs (an_suffix x)).
Fixpoint m_regions (p : ptr) (l : list region) : mem :=
  match l with
  | [] => nothing (p = NULL)
  | x :: l' => somewhere (λ '(t, u, v, w, ps, qs, rs, ss, n),
      (cell p (BRegion (re_location x) t u v w n) ⋆ m_text t ps (re_prefix x) ⋆ m_text u qs (re_suffix x) ⋆
       m_text v rs (re_prelude x) ⋆ m_text w ss (re_postlude x)) ⋆ m_regions n l')
  end.
Fixpoint m_loops (p : ptr) (l : list ExtModel.loop) : mem :=
  match l with
  | [] => nothing (p = NULL)
  | x :: l' => somewhere (λ '(i, s, pv, u, n),
      (cell p (BLoop i (Z.of_nat (List.length (lo_stmts x))) s pv (lo_directive x) u n) ⋆
       m_str i (lo_iter x) ⋆ m_ints s (lo_stmts x) ⋆ m_str pv (lo_private x) ⋆ m_str u (lo_user x)) ⋆ m_loops n l')
  end.
Fixpoint m_unrolls (p : ptr) (l : list unroll) : mem :=
  match l with
  | [] => nothing (p = NULL)
  | x :: l' => somewhere (λ '(i, n), (cell p (BUnroll i (un_jam x) (un_factor x) n) ⋆ m_str i (un_iter x)) ⋆ m_unrolls n l')
  end.
(** The integer fields of a dependence, in the order of their declarations. *)
Definition dependence_ints (d : dependence) : list Z :=
  [de_label_source d; de_label_target d; de_ref_source d; de_ref_target d; de_depth d; de_type d] ++ de_dims d.
Fixpoint m_dependences (p : ptr) (l : list dependence) : mem :=
  match l with
  | [] => nothing (p = NULL)
  | x :: l' => somewhere (λ '(d, n), cell p (BDependence (dependence_ints x) d n) ⋆
      (λ h, stores_union h d (de_domain x)) ⋆ m_dependences n l')
  end.
Definition m_null (p : ptr) : mem := cell p BNull.

(** No line of the text is missing. *)
Definition lines_present (x : text_lines) : Prop := Forall (λ e, snd e ≠ None) x.
Definition annotation_present (x : annotation) : Prop := lines_present (an_prefix x) ∧ lines_present (an_suffix x).
Definition region_present (x : region) : Prop :=
  lines_present (re_prefix x) ∧ lines_present (re_suffix x) ∧ lines_present (re_prelude x) ∧ lines_present (re_postlude x).

(** ** Programs that copy and free *)

(** Wherever [p] holds [x], the program makes a copy that holds [x'], in memory of its own, and
    leaves the original exactly as it was. *)
Definition copies {X} (clone : ptr → oprog ptr) (m : ptr → X → mem) (x x' : X) : Prop :=
  ∀ h p, m p x h → runs_to (clone p) h (λ q h', ∃ hc, splits h' [h; hc] ∧ m q x' hc).
(** Wherever [p] holds [x], the program releases all of it, and nothing else. *)
Definition releases {X} (free : ptr → oprog unit) (m : ptr → X → mem) (x : X) : Prop :=
  ∀ h p, m p x h → runs_to (free p) h (λ _ h', h' = ∅).
