(** * SaveSpec: which statements and scops the text format can carry (C35, and the symbols of C33)

    Value types of the models, the requirements of ExtSpec on each payload, and the printed text of a payload
    (its sprint function), which must not contain the tag that ends it. *)
From Verif Require Import Base Spec TextSpec RelationModel UtilModel StringsModel RelTextModel ExtModel ExtSpec ScopModel
  PropRelText PropExt3.

(** The name of a tag: letters and underscores. *)
Definition tag_name (u : str) : Prop := u <> [] /\ Forall (fun c => is_upper c = true \/ is_lower c = true \/ c = c_under) u.

Section SAVE.
Variable cfg : config.
Variable p : Z.            (* the precision used by the readers *)

(** A payload the format can carry.  Symbols are lists of nodes whose four fields hold exactly one extension each. *)
Inductive payload_ok : kind -> edata -> Prop :=
| po_strings l : l <> [] -> Forall (word_string 2047) l -> payload_ok KStrings (DStrings (Some l))
| po_body b : body_ok b -> payload_ok KBody (DBody b)
| po_relation t r : printable_type t -> savable cfg p t r -> payload_ok KRelation (DRelation [r])
| po_comment c : (List.length c < 2047)%nat -> payload_ok KComment (DComment (Some c))
| po_null : payload_ok KNull DNull
| po_scatinfos i : count_ok i -> Forall scatinfo_ok i -> payload_ok KScatinfos (DScatinfos i)
| po_scatnames l : l <> [] -> Forall (word_string 2047) l -> payload_ok KScatnames (DScatnames (Some (Some l)))
| po_arrays a : arrays_ok a -> payload_ok KArrays (DArrays a)
| po_coordinates c : coordinates_ok c -> payload_ok KCoordinates (DCoordinates c)
| po_clay c : match c with x :: _ => x <> c_nl | [] => True end -> (List.length c < 2047)%nat ->
    payload_ok KClay (DClay (Some c))
| po_dependence l : l <> [] -> count_ok l -> Forall (dependence_ok cfg p) l -> payload_ok KDependence (DDependence l)
| po_symbols l : l <> [] -> count_ok l -> symbols_ok l ->
    (forall text, data_sprint KSymbols (DSymbols l) = Ok (Some text) -> (List.length text < 2048)%nat) ->
    payload_ok KSymbols (DSymbols l)
| po_extbody e : extbody_ok e -> payload_ok KExtbody (DExtbody e)
| po_loop l : l <> [] -> count_ok l -> Forall loop_ok l -> payload_ok KLoop (DLoop l)
| po_unroll l : l <> [] -> Forall unroll_ok l -> payload_ok KPlutoUnroll (DPlutoUnroll l)
| po_region l : l <> [] -> count_ok l -> Forall region_ok l -> payload_ok KRegion (DRegion l)
| po_annotation a : annotation_ok a -> payload_ok KAnnotation (DAnnotation a)
with symbols_ok : list symbol -> Prop :=
| so_nil : symbols_ok []
| so_cons type gen dims a b c e l :
    In type [-1; 1; 2; 3; 4] -> c_int gen -> c_int dims ->
    generic_ok default_registry a -> generic_ok default_registry b ->
    generic_ok default_registry c -> generic_ok default_registry e ->
    symbols_ok l -> symbols_ok (Symbol type gen dims [a] [b] [c] [e] :: l)
(** An extension of an interface known to the registry used for reading, whose text does not contain its end tag. *)
with generic_ok : list interf -> generic -> Prop :=
| go_some registry u k d : tag_name u -> osl_interface_lookup registry u = Some (Iface (Some u) k) -> payload_ok k d ->
    (forall text, data_sprint k d = Ok (Some text) -> ~ occurs (end_tag u) text) ->
    generic_ok registry (Generic (Some (Iface (Some u) k)) (Some d)).

Definition distinct_uris (l : list generic) : Prop := NoDup (map g_uri l).
Definition generics_ok (registry : list interf) (l : list generic) : Prop :=
  count_ok l /\ Forall (generic_ok registry) l /\ distinct_uris l.

(** A relation the format can carry: no part or parts of one type and of the precision of the reader. *)
Definition relation_ok (type : Z) (u : list relation) : Prop :=
  zlength u <= 2 ^ 31 - 1 /\ Forall (savable cfg p type) u.
Definition access_ok (u : list relation) : Prop :=
  u <> [] /\ exists t, In t [TYPE_READ; TYPE_WRITE; TYPE_MAY_WRITE] /\ relation_ok t u.
Definition statement_ok (registry : list interf) (s : statement) : Prop :=
  relation_ok TYPE_DOMAIN (st_domain s) /\ relation_ok TYPE_SCATTERING (st_scattering s) /\
  zlength (st_access s) + 2 <= 2 ^ 31 - 1 /\ Forall access_ok (st_access s) /\
  generics_ok registry (st_ext s).
Definition scop_ok (registry : list interf) (s : scop) : Prop :=
  sc_version s = 1 /\ sc_registry s = registry /\
  (exists w, sc_language s = Some w /\ word_string 2046 w) /\
  sc_context s <> [] /\ relation_ok TYPE_CONTEXT (sc_context s) /\
  (sc_params s = [] \/ exists k d, sc_params s = [Generic (Some (Iface (Some (lit "strings")) k)) (Some d)] /\
                         generic_ok registry (Generic (Some (Iface (Some (lit "strings")) k)) (Some d))) /\
  zlength (sc_stmts s) <= 2 ^ 31 - 1 /\ Forall (statement_ok registry) (sc_stmts s) /\
  generics_ok registry (sc_ext s) /\
  (forall text, osl_generic_sprint (sc_ext s) = Ok text -> ~ occurs (lit "</OpenScop>") text).

End SAVE.

(** What is read back: everything as it was, except that a comment read from a string gains the newline that follows its
    start tag. *)
Fixpoint reread (d : edata) : edata :=
  match d with
  | DComment (Some c) => DComment (Some (c_nl :: c))
  | DSymbols l => DSymbols (map reread_symbol l)
  | _ => d
  end
with reread_symbol (x : symbol) : symbol :=
  match x with
  | Symbol t g n a b c e =>
      Symbol t g n (map reread_generic a) (map reread_generic b) (map reread_generic c) (map reread_generic e)
  end
with reread_generic (g : generic) : generic :=
  match g with Generic i o => Generic i (match o with Some d => Some (reread d) | None => None end) end.
(** The same for an extension read from a file, whose start tag is read with its whole line. *)
Definition reread_file (g : generic) : generic :=
  match g with
  | Generic i (Some (DComment c)) => Generic i (Some (DComment c))
  | _ => reread_generic g
  end.
Definition reread_statement (s : statement) : statement :=
  Statement (st_domain s) (st_scattering s) (st_access s) (map reread_file (st_ext s)).
Definition reread_scop (s : scop) : scop :=
  Scop (sc_version s) (sc_language s) (sc_context s) (map reread_file (sc_params s)) (map reread_statement (sc_stmts s))
    (sc_registry s) (map reread_generic (sc_ext s)).

(** Extensions that are neither comments nor symbols (which may contain comments) are read back as they were. *)
Definition plain_generic (g : generic) : Prop :=
  match g with Generic _ (Some (DComment _)) | Generic _ (Some (DSymbols _)) => False | _ => True end.
Definition plain_scop (s : scop) : Prop :=
  Forall plain_generic (sc_params s) /\ Forall (fun st => Forall plain_generic (st_ext st)) (sc_stmts s) /\
  Forall plain_generic (sc_ext s).

(** Payloads whose own equality function accepts a copy of themselves: no regions, whose comparison never terminates well
    (C33_region_equal_refuted), and loops that either all or none have a private list and a user string. *)
Fixpoint comparable (d : edata) : Prop :=
  match d with
  | DRegion _ => False
  | DLoop l => uniform lo_private l /\ uniform lo_user l
  | DSymbols l => fold_right (fun x P => comparable_symbol x /\ P) True l
  | _ => True
  end
with comparable_symbol (x : symbol) : Prop :=
  match x with
  | Symbol t g n a b c e =>
      fold_right (fun x P => comparable_generic x /\ P) True a /\ fold_right (fun x P => comparable_generic x /\ P) True b /\
      fold_right (fun x P => comparable_generic x /\ P) True c /\ fold_right (fun x P => comparable_generic x /\ P) True e
  end
with comparable_generic (g : generic) : Prop :=
  match g with Generic _ (Some d) => comparable d | Generic _ None => True end.
Definition comparable_scop (s : scop) : Prop :=
  Forall comparable_generic (sc_params s) /\ Forall (fun st => Forall comparable_generic (st_ext st)) (sc_stmts s) /\
  Forall comparable_generic (sc_ext s).
