(** * FullSpec: what it means for a memory to hold interfaces, extensions, symbols, statements and scops

    Independent of the programs (but for the number that stands for the function pointers of an interface) and of the
    separation logic used in the proofs. *)
From stdpp Require Import gmap.
From Verif Require Import Base RelationModel RelSpec StringsModel ExtModel HeapModel HeapObjects HeapSpec RelTextModel ScopModel PayloadSpec FullModel.

(** A list of nodes linked by their [next] field: [one p x n] is the node at [p] that holds [x], with [next] = [n]. *)
Definition m_chain {A} (one : ptr → A → ptr → mem) : ptr → list A → mem :=
  fix go p l :=
    match l with
    | [] => nothing (p = NULL)
    | x :: l' => somewhere (λ n, one p x n ⋆ go n l')
    end.

(** ** Interfaces *)
Definition m_iface (p : ptr) (i : interf) (n : ptr) : mem :=
  somewhere (λ u, cell p (BIface u (code (if_kind i)) n) ⋆ m_str u (if_uri i)).
Definition m_ifaces : ptr → list interf → mem := m_chain m_iface.
Definition m_iface_opt (p : ptr) (o : option interf) : mem :=
  match o with None => nothing (p = NULL) | Some i => m_iface p i NULL end.

(** ** Extensions *)
Definition m_union (p : ptr) (u : list relation) : mem := λ h, stores_union h p u.
Definition m_list (p : ptr) (l : list (list relation)) : mem := λ h, stores_list h p l.
Fixpoint m_data (p : ptr) (d : edata) {struct d} : mem :=
  match d with
  | DStrings s => m_strings p (Some s)
  | DBody b => m_body p (Some b)
  | DRelation u => m_union p u
  | DTextual t => m_comment p t
  | DComment c => m_comment p c
  | DClay c => m_comment p c
  | DNull => m_null p
  | DScatinfos i => m_scatinfos p i
  | DScatnames s => m_scatnames p s
  | DArrays a => m_arrays p a
  | DCoordinates c => m_coordinates p c
  | DDependence l => m_dependences p l
  | DSymbols l => m_chain m_symbol p l
  | DExtbody e => m_extbody p e
  | DLoop l => m_loops p l
  | DPlutoUnroll l => m_unrolls p l
  | DRegion l => m_regions p l
  | DAnnotation a => m_annotation p a
  end
with m_symbol (p : ptr) (x : symbol) (n : ptr) {struct x} : mem :=
  match x with
  | Symbol ty gen dims a b c e =>
      somewhere (λ '(pa, pb, pc, pe), cell p (BSymbols ty gen dims pa pb pc pe n) ⋆
        m_chain m_generic pa a ⋆ m_chain m_generic pb b ⋆ m_chain m_generic pc c ⋆ m_chain m_generic pe e)
  end
with m_generic (p : ptr) (g : generic) (n : ptr) {struct g} : mem :=
  match g with
  | Generic i d =>
      somewhere (λ '(pd, pi), cell p (BGen pd pi n) ⋆ m_iface_opt pi i ⋆
        match d with None => nothing (pd = NULL) | Some d => m_data pd d end)
  end.
Definition m_generics : ptr → list generic → mem := m_chain m_generic.
Definition m_symbols : ptr → list symbol → mem := m_chain m_symbol.

(** ** Statements, scops and names *)
Definition m_statement (p : ptr) (s : statement) (n : ptr) : mem :=
  somewhere (λ '(d, c, a, e), cell p (BStmt d c a e n) ⋆
    m_union d (st_domain s) ⋆ m_union c (st_scattering s) ⋆ m_list a (st_access s) ⋆ m_generics e (st_ext s)).
Definition m_statements : ptr → list statement → mem := m_chain m_statement.
Definition m_scop (p : ptr) (s : scop) (n : ptr) : mem :=
  somewhere (λ '(l, c, pa, st, r, e), cell p (BScop (sc_version s) l c pa st r e n) ⋆
    m_str l (sc_language s) ⋆ m_union c (sc_context s) ⋆ m_generics pa (sc_params s) ⋆
    m_statements st (sc_stmts s) ⋆ m_ifaces r (sc_registry s) ⋆ m_generics e (sc_ext s)).
Definition m_scops : ptr → list scop → mem := m_chain m_scop.
(** A names object always has its five strings objects. *)
Definition m_names (p : ptr) (x : names) : mem :=
  somewhere (λ '(a, b, c, d, e), cell p (BNames a b c d e) ⋆
    m_strings a (Some (n_params x)) ⋆ m_strings b (Some (n_iters x)) ⋆ m_strings c (Some (n_scatt x)) ⋆
    m_strings d (Some (n_locals x)) ⋆ m_strings e (Some (n_arrays x))).

(** ** What can be freed: the data of an extension is of the kind of its interface, an extension without interface has no
    data, and the data of an annotation is not NULL. *)
Definition data_kind (d : edata) : kind :=
  match d with
  | DStrings _ => KStrings | DBody _ => KBody | DRelation _ => KRelation | DTextual _ => KTextual | DComment _ => KComment
  | DNull => KNull | DScatinfos _ => KScatinfos | DScatnames _ => KScatnames | DArrays _ => KArrays
  | DCoordinates _ => KCoordinates | DClay _ => KClay | DDependence _ => KDependence | DSymbols _ => KSymbols
  | DExtbody _ => KExtbody | DLoop _ => KLoop | DPlutoUnroll _ => KPlutoUnroll | DRegion _ => KRegion
  | DAnnotation _ => KAnnotation
  end.
Definition all_of {A} (P : A → Prop) : list A → Prop := fix go l := match l with [] => True | x :: l' => P x ∧ go l' end.
Fixpoint typed_data (d : edata) : Prop :=
  match d with DSymbols l => all_of typed_symbol l | _ => True end
with typed_symbol (x : symbol) : Prop :=
  match x with Symbol _ _ _ a b c e => all_of typed_generic a ∧ all_of typed_generic b ∧ all_of typed_generic c ∧ all_of typed_generic e end
with typed_generic (g : generic) : Prop :=
  match g with
  | Generic None d => d = None
  | Generic (Some i) None => if_kind i ≠ KAnnotation
  | Generic (Some i) (Some d) => data_kind d = if_kind i ∧ typed_data d
  end.
Definition typed_generics (l : list generic) : Prop := Forall typed_generic l.
Definition typed_scop (s : scop) : Prop :=
  typed_generics (sc_params s) ∧ typed_generics (sc_ext s) ∧ Forall (λ t, typed_generics (st_ext t)) (sc_stmts s).
