(** * DumpSpec: what the dump functions promise (C55) *)
From Verif Require Import Base Spec RelSpec TextSpec IntModel VectorModel RelationModel StringsModel RelTextModel ExtModel ScopModel.

(** ** Indentation *)
(** The text with [p] at the beginning of each of its lines. *)
Fixpoint prefixed (p : str) (at_start : bool) (t : str) : str :=
  match t with
  | [] => []
  | c :: tl => (if at_start then p else []) ++ c :: prefixed p (ceqb c c_nl) tl
  end.
Fixpoint times (n : nat) (s : str) : str := match n with O => [] | S k => s ++ times k s end.
(** The text moved [level] levels to the right. *)
Definition shifted (level : Z) (t : str) : str := prefixed (times (Z.to_nat level) [chr 124; chr 9]) true t.
(** A dump function writes at any level what it writes at level 0, moved to the right; it fails at any level if it does at
    level 0. *)
Definition uniform_dump (idump : Z -> res str) : Prop :=
  forall level, 0 <= level -> idump level = (t <- idump 0 ;; Ok (shifted level t)).

(** ** Everything in a generic *)
(** [P] holds of the interface and the data of a generic and of those of all generics in the symbols it holds. *)
Section INSIDE.
Variable P : interf -> option edata -> Prop.
Fixpoint data_inside (d : edata) : Prop :=
  match d with
  | DSymbols l => fold_right (fun x Q => symbol_inside x /\ Q) True l
  | _ => True
  end
with symbol_inside (x : symbol) : Prop :=
  match x with
  | Symbol _ _ _ a b c e =>
      fold_right (fun g Q => generic_inside g /\ Q) True a /\ fold_right (fun g Q => generic_inside g /\ Q) True b /\
      fold_right (fun g Q => generic_inside g /\ Q) True c /\ fold_right (fun g Q => generic_inside g /\ Q) True e
  end
with generic_inside (g : generic) : Prop :=
  match g with
  | Generic (Some i) d => P i d /\ match d with Some d => data_inside d | None => True end
  | Generic None _ => True
  end.
End INSIDE.

(** ** Texts without newline where the dump shows them on one line *)
Definition one_line (s : option str) : Prop := match s with Some t => no_nl t | None => True end.
Definition one_line_strings (s : option strings) : Prop := match s with Some l => Forall no_nl (elems l) | None => True end.
Definition one_line_body (b : body) : Prop := one_line_strings (bo_iterators b) /\ one_line_strings (bo_expression b).
(** The lines of regions and annotations are not indented (C55_texts_refuted): there must be none. *)
Definition one_line_data (i : interf) (d : option edata) : Prop :=
  one_line (if_uri i) /\
  match d with
  | Some (DStrings s) => one_line_strings (Some s)
  | Some (DBody b) => one_line_body b
  | Some (DScatnames n) => one_line_strings n
  | Some (DArrays a) => Forall (fun x => no_nl (snd x)) a
  | Some (DCoordinates c) => one_line (co_name c)
  | Some (DExtbody e) => match eb_body e with Some b => one_line_body b | None => True end
  | Some (DLoop l) => Forall (fun x => one_line (lo_iter x) /\ one_line (lo_private x) /\ one_line (lo_user x)) l
  | Some (DPlutoUnroll l) => Forall (fun x => one_line (un_iter x)) l
  | Some (DRegion l) =>
      Forall (fun r => re_prefix r = [] /\ re_suffix r = [] /\ re_prelude r = [] /\ re_postlude r = []) l
  | Some (DAnnotation a) => an_prefix a = [] /\ an_suffix a = []
  | _ => True
  end.
Definition one_line_generics (l : list generic) : Prop := Forall (generic_inside one_line_data) l.
Definition one_line_statement (s : statement) : Prop := one_line_generics (st_ext s).
Definition one_line_scop (s : scop) : Prop :=
  one_line (sc_language s) /\ one_line_generics (sc_params s) /\ Forall one_line_statement (sc_stmts s) /\
  Forall (fun i => one_line (if_uri i)) (sc_registry s) /\ one_line_generics (sc_ext s).
(** The statements that dependences point to *)
Definition each_pointed (pointed : dependence -> option statement * option statement) (P : statement -> Prop) : Prop :=
  forall d s, (fst (pointed d) = Some s \/ snd (pointed d) = Some s) -> P s.

(** ** The text of the dump of a union of relations: lines, each with its level *)
Definition in_lines (l : list (Z * str)) : str :=
  concat (map (fun x => times (Z.to_nat (fst x)) [chr 124; chr 9] ++ snd x ++ [c_nl]) l).
Definition spaced (l : list Z) : str := flat_map (fun v => pad4 (print_Z v) ++ lit " ") l.
Definition precision_text (p : Z) : str :=
  if p =? PRECISION_SP then lit "32 bits" else if p =? PRECISION_DP then lit "64 bits" else lit "GMP".
(** The name of the type, the sizes and the rows of one part; from the second part on, the parts are introduced by two lines *)
Definition part_name (r : relation) : str := lit "osl_relation_t (" ++ type_string (rtype r) ++ lit ", " ++ precision_text (rprec r) ++ lit ")".
Definition part_lines (level : Z) (r : relation) : list (Z * str) :=
  (level + 1, print_Z (nrows r) ++ lit " " ++ print_Z (ncols r) ++ lit " " ++ print_Z (nout r) ++ lit " " ++ print_Z (nin r)
              ++ lit " " ++ print_Z (nloc r) ++ lit " " ++ print_Z (npar r))
  :: map (fun row => (level + 1, lit "[ " ++ spaced row ++ lit "]")) (rows r).
Definition union_lines (level : Z) (u : list relation) : list (Z * str) :=
  match u with
  | [] => [(level, lit "+-- NULL relation")]
  | r :: tl => (level, lit "+-- " ++ part_name r) :: part_lines level r
               ++ flat_map (fun r => [(level + 1, lit "|"); (level + 1, lit "V"); (level, lit "|   " ++ part_name r)] ++ part_lines level r) tl
  end ++ [(level + 1, [])].
(** ** What can be dumped *)
(** A number of less than 2047 digits *)
Definition dumpable_int (v : Z) : Prop := Z.abs v < 10 ^ 2046.
Definition dumpable_vector (cfg : config) (v : vector) : Prop := wf_vec cfg v /\ Forall dumpable_int (vv v).
Definition dumpable_relation (cfg : config) (r : relation) : Prop := wf_rel cfg r /\ Forall (Forall dumpable_int) (rows r).
Definition dumpable_union (cfg : config) (u : list relation) : Prop := Forall (dumpable_relation cfg) u.
(** Data of the kind of its interface. *)
Definition matching (k : kind) (d : edata) : Prop :=
  match k, d with
  | KStrings, DStrings _ | KBody, DBody _ | KRelation, DRelation _ | KTextual, DTextual _ | KComment, DComment _ | KNull, DNull
  | KScatinfos, DScatinfos _ | KScatnames, DScatnames _ | KArrays, DArrays _ | KCoordinates, DCoordinates _ | KClay, DClay _
  | KDependence, DDependence _ | KSymbols, DSymbols _ | KExtbody, DExtbody _ | KLoop, DLoop _ | KPlutoUnroll, DPlutoUnroll _
  | KRegion, DRegion _ | KAnnotation, DAnnotation _ => True
  | _, _ => False
  end.
Section DUMPABLE.
Variable cfg : config.
Variable pointed : dependence -> option statement * option statement.
Variable P : statement -> Prop.   (* the statements dependences may point to *)
Definition dumpable_dependence (d : dependence) : Prop :=
  dumpable_union cfg (de_domain d) /\
  (exists s, fst (pointed d) = Some s /\ P s) /\ (exists s, snd (pointed d) = Some s /\ P s).
Definition dumpable_data (i : interf) (d : option edata) : Prop :=
  match d with
  | None => if_kind i <> KAnnotation
  | Some d =>
      matching (if_kind i) d /\
      match d with
      | DRelation u => dumpable_union cfg u
      | DTextual t | DComment t | DClay t => t <> None
      | DDependence l => Forall dumpable_dependence l
      | _ => True
      end
  end.
Definition dumpable_generics (l : list generic) : Prop := Forall (generic_inside dumpable_data) l.
Definition dumpable_statement_with (s : statement) : Prop :=
  dumpable_union cfg (st_domain s) /\ dumpable_union cfg (st_scattering s) /\ Forall (dumpable_union cfg) (st_access s) /\
  dumpable_generics (st_ext s).
Definition dumpable_scop_with (s : scop) : Prop :=
  dumpable_union cfg (sc_context s) /\ dumpable_generics (sc_params s) /\ Forall dumpable_statement_with (sc_stmts s) /\
  dumpable_generics (sc_ext s).
End DUMPABLE.
(** Statements whose dependences (and those of the statements they point to, and so on) are nested [n] deep at most. *)
Fixpoint dumpable_statement (cfg : config) (pointed : dependence -> option statement * option statement) (n : nat) (s : statement) : Prop :=
  match n with
  | O => dumpable_statement_with cfg pointed (fun _ => False) s
  | S k => dumpable_statement_with cfg pointed (dumpable_statement cfg pointed k) s
  end.
Definition dumpable_scop (cfg : config) (pointed : dependence -> option statement * option statement) (n : nat) (s : scop) : Prop :=
  match n with
  | O => dumpable_scop_with cfg pointed (fun _ => False) s
  | S k => dumpable_scop_with cfg pointed (dumpable_statement cfg pointed k) s
  end.

(** ** Values that are seen completely in their dump *)
Definition a_word (s : str) : Prop := s <> [] /\ Forall (fun c => is_space c = false) s.
Definition clear_strings (s : option strings) : Prop := s = None \/ exists l, s = Some (Some l) /\ Forall a_word l.
(** Strings are written one after the other (C55_strings_refuted): words, or only one. *)
Definition clear_expression (s : option strings) : Prop := s = None \/ exists e, s = Some (Some [e]) /\ no_nl e.
Definition clear_body (b : body) : Prop := clear_strings (bo_iterators b) /\ clear_expression (bo_expression b).
(** A NULL string is shown as (null). *)
Definition clear_text (s : option str) : Prop := one_line s /\ s <> Some (lit "(null)").
Definition known_type (t : Z) : Prop :=
  In t [UNDEFINED; TYPE_CONTEXT; TYPE_DOMAIN; TYPE_SCATTERING; TYPE_READ; TYPE_WRITE; TYPE_MAY_WRITE].
Definition clear_relation (cfg : config) (r : relation) : Prop := wf_rel cfg r /\ known_type (rtype r).
Definition clear_union (cfg : config) (u : list relation) : Prop := Forall (clear_relation cfg) u.
Section CLEAR.
Variable cfg : config.
Definition clear_dependence (d : dependence) : Prop :=
  In (de_type d) [UNDEFINED; 1; 2; 3; 4; 5] /\ zlength (de_dims d) = 8 /\ clear_union cfg (de_domain d).
Definition symbol_type (x : symbol) : Z := match x with Symbol t _ _ _ _ _ _ => t end.
(** An empty list is the NULL pointer.  The texts of regions and annotations cannot be told from each other
    (C55_annotation_refuted). *)
Definition clear_data (i : interf) (d : option edata) : Prop :=
  i = osl_interface_of (if_kind i) /\
  match d with
  | None => True
  | Some d =>
      match d with
      | DStrings s => clear_strings (Some s)
      | DBody b => clear_body b
      | DRelation u => u <> [] /\ clear_union cfg u
      | DTextual t => exists s, t = Some s /\ no_nl s /\ zlength s <= 40
      | DComment t | DClay t => exists s, t = Some s /\ no_nl s
      | DNull => True
      | DScatinfos _ => True
      | DScatnames n => clear_strings n
      | DArrays a => Forall (fun x => no_nl (snd x)) a
      | DCoordinates c => one_line (co_name c)
      | DDependence l => l <> [] /\ Forall clear_dependence l
      | DSymbols l => l <> [] /\ Forall (fun x => In (symbol_type x) [UNDEFINED; 1; 2; 3; 4]) l
      | DExtbody e => match eb_body e with Some b => clear_body b | None => True end
      | DLoop l => l <> [] /\ Forall (fun x => clear_text (lo_iter x) /\ clear_text (lo_private x) /\ clear_text (lo_user x)) l
      | DPlutoUnroll l => l <> [] /\ Forall (fun x => clear_text (un_iter x)) l
      | DRegion _ | DAnnotation _ => False
      end
  end.
(** Data without interface is not shown. *)
Fixpoint no_hidden_data (d : edata) : Prop :=
  match d with
  | DSymbols l => fold_right (fun x Q => no_hidden_symbol x /\ Q) True l
  | _ => True
  end
with no_hidden_symbol (x : symbol) : Prop :=
  match x with
  | Symbol _ _ _ a b c e =>
      fold_right (fun g Q => no_hidden g /\ Q) True a /\ fold_right (fun g Q => no_hidden g /\ Q) True b /\
      fold_right (fun g Q => no_hidden g /\ Q) True c /\ fold_right (fun g Q => no_hidden g /\ Q) True e
  end
with no_hidden (g : generic) : Prop :=
  match g with
  | Generic (Some i) (Some d) => no_hidden_data d
  | Generic (Some i) None => True
  | Generic None d => d = None
  end.
Definition clear_generics (l : list generic) : Prop := Forall (fun g => generic_inside clear_data g /\ no_hidden g) l.
Definition clear_statement (s : statement) : Prop :=
  clear_union cfg (st_domain s) /\ clear_union cfg (st_scattering s) /\ Forall (clear_union cfg) (st_access s) /\ clear_generics (st_ext s).
Definition clear_scop (s : scop) : Prop :=
  clear_text (sc_language s) /\ clear_union cfg (sc_context s) /\ clear_generics (sc_params s) /\ Forall clear_statement (sc_stmts s) /\
  Forall (fun i => i = osl_interface_of (if_kind i)) (sc_registry s) /\ clear_generics (sc_ext s).
End CLEAR.
