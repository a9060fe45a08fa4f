(** * ScopModel: generics, symbols, statements and scops as values
    (source/generic.c, source/interface.c, source/extensions/symbols.c, source/statement.c, source/scop.c,
    source/relation_list.c)

    Values as in ExtModel: NULL pointers are [None] or [ [] ].  An interface is its URI and the family of
    functions it points to ([kind]); the families are those of the library (a user-defined interface is outside the
    model).  The data of a generic is used through the functions of its interface: data of another kind is undefined
    behaviour.  The [usr] field of a scop is not modelled; the SCoPLib printing functions are in
    ScoplibModel.v, the dump functions in DumpModel.v.
    Warnings and debug messages are not modelled. *)
From Verif Require Import Base IntModel VectorModel RelationModel UtilModel StringsModel RelTextModel ExtModel.

(** ** Interfaces *)
Inductive kind := KStrings | KBody | KRelation | KTextual | KComment | KNull | KScatinfos | KScatnames | KArrays
  | KCoordinates | KClay | KDependence | KSymbols | KExtbody | KLoop | KPlutoUnroll | KRegion | KAnnotation.
Definition kind_eq_dec (a b : kind) : {a = b} + {a <> b}.
Proof. decide equality. Defined.
Definition kind_eqb (a b : kind) : bool := if kind_eq_dec a b then true else false.
(** The OSL_URI_* macros, include/osl/{strings,body,relation}.h and include/osl/extensions/*.h *)
Definition uri_of (k : kind) : str :=
  lit match k with
  | KStrings => "strings" | KBody => "body" | KRelation => "relation" | KTextual => "textual" | KComment => "comment"
  | KNull => "null" | KScatinfos => "scatinfos" | KScatnames => "scatnames" | KArrays => "arrays"
  | KCoordinates => "coordinates" | KClay => "clay" | KDependence => "dependence" | KSymbols => "symbols"
  | KExtbody => "extbody" | KLoop => "loop" | KPlutoUnroll => "pluto_unroll" | KRegion => "region"
  | KAnnotation => "annotation"
  end.
Record interf := Iface { if_uri : option str; if_kind : kind }.
(** source/strings.c, source/body.c, ...: the osl_*_interface functions *)
Definition osl_interface_of (k : kind) : interf := Iface (Some (uri_of k)) k.
(** source/interface.c:366-393 osl_interface_get_default_registry *)
Definition default_registry : list interf :=
  map osl_interface_of [KStrings; KBody; KRelation; KTextual; KComment; KNull; KScatinfos; KScatnames; KArrays;
    KCoordinates; KClay; KDependence; KSymbols; KExtbody; KLoop; KPlutoUnroll; KRegion; KAnnotation].
(** source/interface.c:345-358 osl_interface_lookup on a non-NULL URI *)
Fixpoint osl_interface_lookup (l : list interf) (uri : str) : option interf :=
  match l with
  | [] => None
  | i :: tl => match if_uri i with
               | Some u => if str_eqb u uri then Some i else osl_interface_lookup tl uri
               | None => osl_interface_lookup tl uri
               end
  end.
(** source/interface.c:314-334 osl_interface_equal on two different objects (first nodes only) *)
Definition osl_interface_equal (a b : option interf) : res bool :=
  match a, b with
  | None, None => Ok true
  | Some a, Some b => e <- strcmp_eq (if_uri a) (if_uri b) ;; Ok (e && kind_eqb (if_kind a) (if_kind b))
  | _, _ => Ok false
  end.

(** ** Generics and symbols *)
Inductive edata :=
| DStrings (s : strings) | DBody (b : body) | DRelation (u : list relation) | DTextual (t : textual)
| DComment (c : comment) | DNull | DScatinfos (i : scatinfos) | DScatnames (n : scatnames) | DArrays (a : arrays)
| DCoordinates (c : coordinates) | DClay (c : clay) | DDependence (l : list dependence) | DSymbols (l : list symbol)
| DExtbody (e : extbody) | DLoop (l : list loop) | DPlutoUnroll (l : list unroll) | DRegion (l : list region)
| DAnnotation (a : annotation)
(** include/osl/extensions/symbols.h: one node *)
with symbol := Symbol (type generated nb_dims : Z) (identifier datatype scope extent : list generic)
(** include/osl/generic.h: one node *)
with generic := Generic (i : option interf) (d : option edata).
Definition g_iface (g : generic) : option interf := match g with Generic i _ => i end.
Definition g_data (g : generic) : option edata := match g with Generic _ d => d end.
Definition g_uri (g : generic) : option str := match g_iface g with Some i => if_uri i | None => None end.

Section SCOP.
Context {cfg : config}.
Variable env : option str.   (* the environment variable OSL_PRECISION, read by the sread functions *)

(** *** Printing *)

(** sprint of NULL data *)
Definition null_sprint (k : kind) : res (option str) :=
  match k with
  | KStrings => t <- osl_strings_sprint None ;; Ok (Some t)
  | KBody => t <- osl_body_sprint None ;; Ok (Some t)
  | KRelation => t <- osl_relation_sprint [] ;; Ok (Some t)
  | KTextual => osl_textual_sprint None
  | KComment => osl_comment_sprint None
  | KNull => osl_null_sprint None
  | KScatinfos => osl_scatinfos_sprint None
  | KScatnames => osl_scatnames_sprint None
  | KArrays => osl_arrays_sprint None
  | KCoordinates => osl_coordinates_sprint None
  | KClay => osl_clay_sprint None
  | KDependence => osl_dependence_sprint []
  | KSymbols => Ok (Some (ln (lit "# Number of symbols") ++ lnZ 0))
  | KExtbody => osl_extbody_sprint None
  | KLoop => osl_loop_sprint []
  | KPlutoUnroll => osl_pluto_unroll_sprint []
  | KRegion => osl_region_sprint []
  | KAnnotation => osl_annotation_sprint None
  end.
(** The loop of source/generic.c:152-180 osl_generic_sprint; [f] prints one node. *)
Definition generics_text (f : generic -> res str) : list generic -> res str :=
  fix go l :=
    match l with
    | [] => Ok []
    | g :: tl =>
        t <- f g ;; r <- go tl ;; Ok (t ++ match tl with [] => [] | _ => [c_nl] end ++ r)
    end.
(** The loop of source/extensions/symbols.c:216-301 osl_symbols_sprint; [f] prints one node. *)
Definition symbols_text (f : Z -> symbol -> res str) : Z -> list symbol -> res str :=
  fix go n l :=
    match l with
    | [] => Ok []
    | x :: tl => a <- f n x ;; b <- go (n + 1) tl ;; Ok (a ++ b)
    end.
(** include/osl/macros.h:105-108 *)
Definition symbol_type_string (t : Z) : str :=
  if t =? 1 then lit "Iterator" else if t =? 2 then lit "Parameter" else if t =? 3 then lit "Array"
  else if t =? 4 then lit "Function" else lit "Undefined".
(** "\n# %d.k title\n" *)
Definition symbol_title (n : Z) (title : str) : str := c_nl :: lit "# " ++ print_Z n ++ ln title.
Definition opening (i : interf) : res str := buf_store (c_lt :: pr (if_uri i) ++ [c_gt; c_nl]).
Definition closing (i : interf) : res str := buf_store (c_lt :: c_slash :: pr (if_uri i) ++ [c_gt; c_nl]).

(** The sprint functions of the interfaces; one symbol of source/extensions/symbols.c:216-301 osl_symbols_sprint; one node of
    source/generic.c:152-180 osl_generic_sprint *)
Fixpoint data_sprint (k : kind) (d : edata) {struct d} : res (option str) :=
  match k, d with
  | KStrings, DStrings s => t <- osl_strings_sprint (Some s) ;; Ok (Some t)
  | KBody, DBody b => t <- osl_body_sprint (Some b) ;; Ok (Some t)
  | KRelation, DRelation u => t <- osl_relation_sprint u ;; Ok (Some t)
  | KTextual, DTextual t => osl_textual_sprint (Some t)
  | KComment, DComment c => osl_comment_sprint (Some c)
  | KNull, DNull => osl_null_sprint (Some tt)
  | KScatinfos, DScatinfos i => osl_scatinfos_sprint (Some i)
  | KScatnames, DScatnames n => osl_scatnames_sprint (Some n)
  | KArrays, DArrays a => osl_arrays_sprint (Some a)
  | KCoordinates, DCoordinates c => osl_coordinates_sprint (Some c)
  | KClay, DClay c => osl_clay_sprint (Some c)
  | KDependence, DDependence l => osl_dependence_sprint l
  | KSymbols, DSymbols l =>
      t <- symbols_text symbol_sprint 1 l ;;
      Ok (Some (ln (lit "# Number of symbols") ++ lnZ (zlength l) ++ t))
  | KExtbody, DExtbody e => osl_extbody_sprint (Some e)
  | KLoop, DLoop l => osl_loop_sprint l
  | KPlutoUnroll, DPlutoUnroll l => osl_pluto_unroll_sprint l
  | KRegion, DRegion l => osl_region_sprint l
  | KAnnotation, DAnnotation a => osl_annotation_sprint (Some a)
  | _, _ => UB
  end
with symbol_sprint (n : Z) (x : symbol) {struct x} : res str :=
  match x with
  | Symbol ty gen dims a b c e =>
      ta <- generics_text generic_sprint_one a ;;
      tb <- generics_text generic_sprint_one b ;;
      tc <- generics_text generic_sprint_one c ;;
      te <- generics_text generic_sprint_one e ;;
      Ok (ln (lit "# ===========================================")
          ++ lit "# " ++ print_Z n ++ lit " Data for symbol number " ++ print_Z n ++ ln [c_sp]
          ++ lit "# " ++ print_Z n ++ ln (lit ".1 Symbol type") ++ ln (symbol_type_string ty)
          ++ symbol_title n (lit ".2 Generated Boolean") ++ lnZ gen
          ++ symbol_title n (lit ".3 Number of dimensions") ++ lnZ dims
          ++ symbol_title n (lit ".4 Identifier") ++ ta
          ++ symbol_title n (lit ".5 Datatype") ++ tb
          ++ symbol_title n (lit ".6 Scope") ++ tc
          ++ symbol_title n (lit ".7 Extent") ++ te)
  end
with generic_sprint_one (g : generic) {struct g} : res str :=
  match g with
  | Generic None _ => Ok []
  | Generic (Some i) d =>
      o <- match d with None => null_sprint (if_kind i) | Some d => data_sprint (if_kind i) d end ;;
      match o with
      | None => Ok []
      | Some content => a <- opening i ;; b <- closing i ;; Ok (a ++ content ++ b)
      end
  end.
(** source/generic.c:152-180 osl_generic_sprint; source/generic.c:189-197 osl_generic_print writes the same text. *)
Definition osl_generic_sprint (l : list generic) : res str := generics_text generic_sprint_one l.
(** source/extensions/symbols.c:216-301 osl_symbols_sprint *)
Definition osl_symbols_sprint (l : list symbol) : res (option str) :=
  match l with [] => null_sprint KSymbols | _ => data_sprint KSymbols (DSymbols l) end.

(** *** Lookup, insertion *)
(** source/generic.c:636-642 osl_generic_has_URI on a non-NULL generic *)
Definition has_uri (g : generic) (uri : str) : bool :=
  match g_uri g with Some u => str_eqb u uri | None => false end.
Definition osl_generic_has_URI (l : list generic) (uri : str) : bool :=
  match l with [] => false | g :: _ => has_uri g uri end.
(** source/generic.c:653-662 osl_generic_lookup *)
Fixpoint osl_generic_lookup (l : list generic) (uri : str) : option edata :=
  match l with
  | [] => None
  | g :: tl => if has_uri g uri then g_data g else osl_generic_lookup tl uri
  end.
(** source/generic.c:363-387 osl_generic_add of one node; [None] is NULL. *)
Definition osl_generic_add (l : list generic) (new : option generic) : res (list generic) :=
  match new with
  | None => Ok l
  | Some g => match g_uri g with
              | None => Err
              | Some u => match osl_generic_lookup l u with Some _ => Err | None => Ok (l ++ [g]) end
              end
  end.
(** source/generic.c:498-506 osl_generic_number, source/generic.c:561-570 osl_generic_count *)
Definition osl_generic_number (l : list generic) : Z := zlength l.
(** source/generic.c:672-683 osl_generic_shell *)
Definition osl_generic_shell (d : option edata) (i : option interf) : generic := Generic i d.

(** *** Reading *)
Definition symbol_type_of (s : str) : Z :=
  if str_eqb s (lit "Iterator") then 1 else if str_eqb s (lit "Parameter") then 2
  else if str_eqb s (lit "Array") then 3 else if str_eqb s (lit "Function") then 4 else UNDEFINED.
(** One iteration of source/extensions/symbols.c:317-385 osl_symbols_sread; [one] is osl_generic_sread_one with the default registry.
    Each field becomes a list of at most one node. *)
Definition node (o : option generic) : list generic := match o with Some g => [g] | None => [] end.
Definition symbol_sread_one (one : str -> res (option generic * str)) (s : str) : res (symbol * str) :=
  '(ty, s) <- osl_util_read_string_s s ;;
  '(gen, s) <- osl_util_read_int_s s ;;
  '(dims, s) <- osl_util_read_int_s s ;;
  '(a, s) <- one s ;; '(b, s) <- one s ;; '(c, s) <- one s ;; '(e, s) <- one s ;;
  Ok (Symbol (symbol_type_of ty) gen dims (node a) (node b) (node c) (node e), s).
Fixpoint symbols_sread_loop (one : str -> res (option generic * str)) (n : nat) (s : str) : res (list symbol * str) :=
  match n with
  | O => Ok ([], s)
  | S k => '(x, s) <- symbol_sread_one one s ;; '(l, s) <- symbols_sread_loop one k s ;; Ok (x :: l, s)
  end.
(** source/extensions/symbols.c:317-385 osl_symbols_sread.  Simplification: with a negative count the C loop reads on until the text is exhausted
    and the program stops with an error, here it stops at once. *)
Definition symbols_sread_with (one : str -> res (option generic * str)) (s : str) : res (list symbol * str) :=
  if MAX_STRING <? zlength s then Err
  else
    '(nb, s) <- osl_util_read_int_s s ;;
    if nb <? 0 then Err else symbols_sread_loop one (Z.to_nat nb) s.

Definition some_list {A} (f : list A -> edata) (l : list A) : option edata :=
  match l with [] => None | _ => Some (f l) end.
(** The sread functions of the interfaces on the content of the tags, a NULL pointer when the end tag is missing
    (some check it, the others dereference it).  What is left unread is ignored. *)
Definition data_sread (one : str -> res (option generic * str)) (k : kind) (content : option str)
  : res (option edata) :=
  match content with
  | None =>
      match k with
      | KTextual | KComment | KNull | KScatinfos | KScatnames | KCoordinates | KClay | KDependence | KSymbols => Ok None
      | _ => UB
      end
  | Some s =>
      match k with
      | KStrings => '(o, _) <- osl_strings_sread s ;; Ok (option_map DStrings o)
      | KBody => '(b, _) <- osl_body_sread s ;; Ok (Some (DBody b))
      | KRelation => '(u, _) <- osl_relation_sread env s ;; Ok (some_list DRelation u)
      | KTextual => '(t, _) <- osl_textual_sread s ;; Ok (Some (DTextual t))
      | KComment => '(c, _) <- osl_comment_sread s ;; Ok (Some (DComment c))
      | KNull => '(_, _) <- osl_null_sread s ;; Ok (Some DNull)
      | KScatinfos => '(i, _) <- osl_scatinfos_sread s ;; Ok (Some (DScatinfos i))
      | KScatnames => '(n, _) <- osl_scatnames_sread s ;; Ok (option_map DScatnames n)
      | KArrays => '(a, _) <- osl_arrays_sread s ;; Ok (Some (DArrays a))
      | KCoordinates => '(c, _) <- osl_coordinates_sread s ;; Ok (Some (DCoordinates c))
      | KClay => '(c, _) <- osl_clay_sread s ;; Ok (Some (DClay c))
      | KDependence => '(l, _) <- osl_dependence_sread env s ;; Ok (some_list DDependence l)
      | KSymbols => '(l, _) <- symbols_sread_with one s ;; Ok (some_list DSymbols l)
      | KExtbody => '(e, _) <- osl_extbody_sread s ;; Ok (Some (DExtbody e))
      | KLoop => '(l, _) <- osl_loop_sread s ;; Ok (some_list DLoop l)
      | KPlutoUnroll => '(l, _) <- osl_pluto_unroll_sread s ;; Ok (some_list DPlutoUnroll l)
      | KRegion => '(l, _) <- osl_region_sread s ;; Ok (some_list DRegion l)
      | KAnnotation => '(a, _) <- osl_annotation_sread s ;; Ok (Some (DAnnotation a))
      end
  end.
(** What osl_generic_sread_one and osl_generic_read_one do with a tag and its content. *)
Definition make_generic (one : str -> res (option generic * str)) (registry : list interf) (tag : str)
    (content : option str) : res (option generic) :=
  match osl_interface_lookup registry tag with
  | None => Ok None
  | Some i => d <- data_sread one (if_kind i) content ;; Ok (Some (Generic (Some i) d))
  end.
(** The test [tag == NULL || strlen(tag) < 1 || tag[0] == '/'] of source/generic.c:264 and 306: NULL or a closing tag make no generic.  The buffer of
    an empty tag name was never written (source/util.c:278-288), so that strlen reads indeterminate characters. *)
Definition usable_tag (t : option str) : res (option str) :=
  match t with
  | None => Ok None
  | Some [] => UB
  | Some (c :: tl) => Ok (if ceqb c c_slash then None else Some (c :: tl))
  end.
(** source/generic.c:257-286 osl_generic_sread_one; [fuel] bounds the nesting of symbols. *)
Fixpoint sread_one_fuel (fuel : nat) (registry : list interf) (s : str) : res (option generic * str) :=
  match fuel with
  | O => OutOfFuel
  | S k =>
      '(t, s) <- osl_util_read_tag_s s ;;
      u <- usable_tag t ;;
      match u with
      | None => Ok (None, s)
      | Some tag =>
          let '(content, s) := osl_util_read_uptoendtag_s s tag in
          g <- make_generic (sread_one_fuel k default_registry) registry tag content ;; Ok (g, s)
      end
  end.
Definition osl_generic_sread_one (registry : list interf) (s : str) : res (option generic * str) :=
  sread_one_fuel (S (List.length s)) registry s.
(** source/extensions/symbols.c:317-385 osl_symbols_sread *)
Definition osl_symbols_sread (s : str) : res (list symbol * str) :=
  symbols_sread_with (fun t => osl_generic_sread_one default_registry t) s.
(** source/generic.c:234-244 osl_generic_sread; every iteration reads at least one character. *)
Fixpoint sread_loop (fuel : nat) (registry : list interf) (l : list generic) (s : str) : res (list generic * str) :=
  match fuel with
  | O => OutOfFuel
  | S k =>
      match s with
      | [] => Ok (l, [])
      | _ => '(g, s) <- osl_generic_sread_one registry s ;; l <- osl_generic_add l g ;; sread_loop k registry l s
      end
  end.
Definition osl_generic_sread (s : str) (registry : list interf) : res (list generic * str) :=
  sread_loop (S (List.length s)) registry [] s.
(** source/generic.c:299-328 osl_generic_read_one *)
Definition osl_generic_read_one (f : file) (registry : list interf) : res (option generic * file) :=
  '(t, f) <- osl_util_read_tag_f f ;;
  u <- usable_tag t ;;
  match u with
  | None => Ok (None, f)
  | Some tag =>
      '(content, f) <- osl_util_read_uptoendtag_f f tag ;;
      g <- make_generic (osl_generic_sread_one default_registry) registry tag content ;; Ok (g, f)
  end.
Definition uri_scop : str := lit "OpenScop".  (* include/osl/macros.h:68 *)
(** source/generic.c:339-349 osl_generic_read: without end tag the NULL string is dereferenced. *)
Definition osl_generic_read (f : file) (registry : list interf) : res (list generic * file) :=
  '(content, f) <- osl_util_read_uptoendtag_f f uri_scop ;;
  match content with
  | None => UB
  | Some s => '(l, _) <- osl_generic_sread s registry ;; Ok (l, f)
  end.

(** *** Equality (of different objects) *)
Definition lift_list {A} (eq : list A -> list A -> res bool) (a b : option (list A)) : res bool :=
  eq (match a with Some l => l | None => [] end) (match b with Some l => l | None => [] end).
(** The loops of source/generic.c:581-626 osl_generic_equal; [eq] is the payload comparison of osl_interface->equal *)
Fixpoint generic_found (eq : option edata -> res bool) (i : option interf) (l : list generic) : res bool :=
  match l with
  | [] => Ok false
  | y :: tl =>
      e <- osl_interface_equal i (g_iface y) ;;
      if e then match i with None => Ok false | Some _ => eq (g_data y) end
      else generic_found eq i tl
  end.
Definition generics_found (eq : generic -> list generic -> res bool) (l2 : list generic) : list generic -> res bool :=
  fix go l1 :=
    match l1 with
    | [] => Ok true
    | x :: tl => b <- eq x l2 ;; if b then go tl else Ok false
    end.
Definition generics_equal_with (eq : generic -> list generic -> res bool) (l1 l2 : list generic) : res bool :=
  if negb (zlength l1 =? zlength l2) then Ok false else generics_found eq l2 l1.
Definition get_list {A} (p : edata -> option A) (d : option edata) : res (option A) :=
  match d with
  | None => Ok None
  | Some d => match p d with Some a => Ok (Some a) | None => UB end
  end.
(** equal(NULL, d2) *)
Definition null_equal (k : kind) (d2 : option edata) : res bool :=
  match d2 with
  | None => match k with KRegion => UB | _ => Ok true end
  | Some _ => match k with KDependence => UB | KTextual => Ok true | _ => Ok false end
  end.
(** equal(d1, NULL), [d1] not NULL *)
Definition equal_null (k : kind) : res bool :=
  match k with KDependence => UB | KTextual => Ok true | _ => Ok false end.
(** The equal functions of the interfaces; source/extensions/symbols.c:502-523 osl_symbols_equal (only the first nodes are compared) *)
Fixpoint data_equal (k : kind) (d1 : edata) (o2 : option edata) {struct d1} : res bool :=
  match o2 with
  | None => equal_null k
  | Some d2 =>
      match k, d1, d2 with
      | KStrings, DStrings a, DStrings b => Ok (osl_strings_equal (Some a) (Some b))
      | KBody, DBody a, DBody b => Ok (osl_body_equal (Some a) (Some b))
      | KRelation, DRelation a, DRelation b => osl_relation_equal a b
      | KTextual, _, _ => Ok true
      | KComment, DComment a, DComment b => osl_comment_equal (Some a) (Some b)
      | KNull, DNull, DNull => Ok true
      | KScatinfos, DScatinfos a, DScatinfos b => Ok (osl_scatinfos_equal (Some a) (Some b))
      | KScatnames, DScatnames a, DScatnames b => Ok (osl_scatnames_equal (Some a) (Some b))
      | KArrays, DArrays a, DArrays b => Ok (osl_arrays_equal (Some a) (Some b))
      | KCoordinates, DCoordinates a, DCoordinates b => osl_coordinates_equal (Some a) (Some b)
      | KClay, DClay a, DClay b => osl_clay_equal (Some a) (Some b)
      | KDependence, DDependence a, DDependence b => osl_dependence_equal a b
      | KSymbols, DSymbols (x :: _), DSymbols (y :: _) => symbol_equal x y
      | KExtbody, DExtbody a, DExtbody b => Ok (osl_extbody_equal (Some a) (Some b))
      | KLoop, DLoop a, DLoop b => osl_loop_equal a b
      | KPlutoUnroll, DPlutoUnroll a, DPlutoUnroll b => Ok (osl_pluto_unroll_equal a b)
      | KRegion, DRegion a, DRegion b => osl_region_equal a b
      | KAnnotation, DAnnotation a, DAnnotation b => osl_annotation_equal (Some a) (Some b)
      | _, _, _ => UB
      end
  end
with symbol_equal (x y : symbol) {struct x} : res bool :=
  match x, y with
  | Symbol t1 g1 n1 a1 b1 c1 e1, Symbol t2 g2 n2 a2 b2 c2 e2 =>
      if negb ((t1 =? t2) && (g1 =? g2) && (n1 =? n2)) then Ok false
      else
        a <- generics_equal_with generic_equal_one a1 a2 ;; if negb a then Ok false else
        b <- generics_equal_with generic_equal_one b1 b2 ;; if negb b then Ok false else
        c <- generics_equal_with generic_equal_one c1 c2 ;; if negb c then Ok false else
        generics_equal_with generic_equal_one e1 e2
  end
with generic_equal_one (x : generic) (l2 : list generic) {struct x} : res bool :=
  match x with
  | Generic i d =>
      generic_found
        (fun d2 => match i with
                   | None => Ok false
                   | Some i => match d with None => null_equal (if_kind i) d2 | Some d => data_equal (if_kind i) d d2 end
                   end) i l2
  end.
(** source/generic.c:581-626 osl_generic_equal *)
Definition osl_generic_equal (l1 l2 : list generic) : res bool := generics_equal_with generic_equal_one l1 l2.
(** source/extensions/symbols.c:502-523 osl_symbols_equal *)
Definition osl_symbols_equal (a b : list symbol) : res bool :=
  match a, b with
  | [], [] => Ok true
  | x :: _, y :: _ => symbol_equal x y
  | _, _ => Ok false
  end.

(** ** Lists of relations (source/relation_list.c): elements may be NULL *)
(** source/relation_list.c:708-718 osl_relation_list_count *)
Definition osl_relation_list_count (l : list (list relation)) : Z :=
  zlength (filter (fun u => match u with [] => false | _ => true end) l).
(** source/relation_list.c:626-642 osl_relation_list_integrity_check *)
Fixpoint osl_relation_list_integrity_check (l : list (list relation)) (type eo ei ep : Z) : res bool :=
  match l with
  | [] => Ok true
  | u :: tl =>
      b <- osl_relation_integrity_check u type eo ei ep ;;
      if b then osl_relation_list_integrity_check tl type eo ei ep else Ok false
  end.
Definition undefined_attrs : attrs := mkattrs UNDEFINED UNDEFINED UNDEFINED UNDEFINED UNDEFINED.
(** The loop of source/relation_list.c:738-760 osl_relation_list_get_attributes: [loc] are the local variables, [a] the results. *)
Fixpoint list_attributes (l : list (list relation)) (loc a : attrs) : res attrs :=
  match l with
  | [] => Ok a
  | u :: tl => loc <- osl_relation_get_attributes u loc ;; list_attributes tl loc (attrs_max a loc)
  end.
Definition osl_relation_list_get_attributes (l : list (list relation)) (a : attrs) : res attrs :=
  list_attributes l undefined_attrs a.
(** The loop of source/relation_list.c:152-176 osl_relation_list_pprint_elts *)
Fixpoint print_elts (l : list (list relation)) (n : option names) : res str :=
  match l with
  | [] => Ok []
  | u :: tl =>
      t <- match u with
           | [] => Ok []
           | _ => t <- osl_relation_spprint u n ;; Ok (t ++ match tl with [] => [] | _ => [c_nl] end)
           end ;;
      r <- print_elts tl n ;; Ok (t ++ r)
  end.
Definition osl_relation_list_pprint_elts (l : list (list relation)) (n : option names) : res str :=
  if 0 <? osl_relation_list_count l then print_elts l n else Ok (ln (lit "# NULL relation list")).
(** source/relation_list.c:287-303 osl_relation_list_pprint *)
Definition osl_relation_list_pprint (l : list (list relation)) (n : option names) : res str :=
  let i := osl_relation_list_count l in
  t <- osl_relation_list_pprint_elts l n ;;
  Ok ((if 1 <? i then lit "# List of " ++ print_Z i ++ ln (lit " elements") ++ lnZ i
       else lit "# List of " ++ print_Z i ++ ln (lit " element ") ++ lnZ i) ++ t).
Fixpoint read_relations (n : nat) (f : file) (p : Z) : res (list (list relation) * file) :=
  match n with
  | O => Ok ([], f)
  | S k => '(u, f) <- osl_relation_pread f p ;; '(l, f) <- read_relations k f p ;; Ok (u :: l, f)
  end.
(** source/relation_list.c:330-352 osl_relation_list_pread: without relation, one node with a NULL element. *)
Definition osl_relation_list_pread (f : file) (p : Z) : res (list (list relation) * file) :=
  '(n, f) <- osl_util_read_int_f f ;;
  if n <? 0 then Err
  else if n =? 0 then Ok ([[]], f)
  else read_relations (Z.to_nat n) f p.
(** source/relation_list.c:669-699 osl_relation_list_filter: copies of the matching elements (the copy is equal, C10) *)
Definition list_match (type : Z) (u : list relation) : bool :=
  match u with
  | [] => false
  | r :: _ => ((type =? TYPE_ACCESS) && osl_relation_is_access r)
              || (negb (type =? TYPE_ACCESS) && (type =? rtype r))
  end.
Definition osl_relation_list_filter (l : list (list relation)) (type : Z) : list (list relation) :=
  filter (list_match type) l.
(** source/relation_list.c:592-609 osl_relation_list_equal *)
Fixpoint osl_relation_list_equal (a b : list (list relation)) : res bool :=
  match a, b with
  | [], [] => Ok true
  | u :: a', v :: b' => e <- osl_relation_equal u v ;; if e then osl_relation_list_equal a' b' else Ok false
  | _, _ => Ok false
  end.

(** ** Statements (source/statement.c) *)
Record statement := Statement { st_domain : list relation; st_scattering : list relation;
                                st_access : list (list relation); st_ext : list generic }.

(** The loop of source/statement.c:802-832 osl_statement_get_attributes *)
Fixpoint statement_attributes (l : list statement) (loc a : attrs) : res attrs :=
  match l with
  | [] => Ok a
  | s :: tl =>
      loc <- osl_relation_get_attributes (st_domain s) loc ;;
      loc <- osl_relation_get_attributes (st_scattering s) loc ;;
      loc <- osl_relation_list_get_attributes (st_access s) loc ;;
      statement_attributes tl loc (attrs_max a loc)
  end.
Definition osl_statement_get_attributes (l : list statement) (a : attrs) : res attrs :=
  statement_attributes l undefined_attrs a.
Definition names_of (a : attrs) : res names :=
  osl_names_generate (lit "P") (a_par a) (lit "i") (a_iter a) (lit "c") (a_scat a) (lit "l") (a_loc a) (lit "A") (a_id a).
(** source/statement.c:169-181 osl_statement_names *)
Definition osl_statement_names (l : list statement) : res names :=
  a <- osl_statement_get_attributes l undefined_attrs ;; names_of a.
(** The body looked up by its URI: data of another kind is undefined. *)
Definition body_of (l : list generic) : res (option body) :=
  match osl_generic_lookup l (uri_of KBody) with
  | None => Ok None
  | Some (DBody b) => Ok (Some b)
  | Some _ => UB
  end.
Definition with_iterators (n : names) (o : option body) : names :=
  match o with
  | Some (Body (Some it) _) => Names (n_params n) it (n_scatt n) (n_locals n) (n_arrays n)
  | _ => n
  end.
(** printf("%2d", v) *)
Definition print2 (v : Z) : str := let t := print_Z v in (match t with [_] => [c_sp] | _ => [] end) ++ t.
Definition rule_title (title : str) : str := lit "# =============================================== " ++ ln title.
Definition section_title (n : Z) (title : str) : str :=
  lit "# ---------------------------------------------- " ++ print2 n ++ ln title.
Definition is_null (u : list relation) : bool := match u with [] => true | _ => false end.
(** One iteration of source/statement.c:191-269 osl_statement_pprint *)
Definition statement_pprint_one (number : Z) (s : statement) (n : names) : res str :=
  b <- body_of (st_ext s) ;;
  let n := with_iterators n b in
  let nb := (if is_null (st_domain s) then 0 else 1) + (if is_null (st_scattering s) then 0 else 1)
            + osl_relation_list_count (st_access s) in
  d <- osl_relation_spprint (st_domain s) (Some n) ;;
  c <- osl_relation_spprint (st_scattering s) (Some n) ;;
  a <- osl_relation_list_pprint_elts (st_access s) (Some n) ;;
  let nb_ext := osl_generic_number (st_ext s) in
  e <- (if 0 <? nb_ext then osl_generic_sprint (st_ext s) else Ok []) ;;
  Ok (rule_title (lit "Statement " ++ print_Z number)
      ++ ln (lit "# Number of relations describing the statement:") ++ lnZ nb ++ [c_nl]
      ++ section_title number (lit ".1 Domain") ++ d ++ [c_nl]
      ++ section_title number (lit ".2 Scattering") ++ c ++ [c_nl]
      ++ section_title number (lit ".3 Access") ++ a ++ [c_nl]
      ++ section_title number (lit ".4 Statement Extensions")
      ++ ln (lit "# Number of Statement Extensions") ++ lnZ nb_ext ++ e ++ [c_nl]).
Fixpoint statements_pprint (number : Z) (l : list statement) (n : names) : res str :=
  match l with
  | [] => Ok []
  | s :: tl => a <- statement_pprint_one number s n ;; b <- statements_pprint (number + 1) tl n ;; Ok (a ++ b)
  end.
(** source/statement.c:191-269 osl_statement_pprint *)
Definition osl_statement_pprint (l : list statement) (on : option names) : res str :=
  n <- match on with None => osl_statement_names l | Some n => Ok n end ;; statements_pprint 1 l n.
(** source/statement.c:366-368 osl_statement_print *)
Definition osl_statement_print (l : list statement) : res str := osl_statement_pprint l None.
(** source/statement.c:383-425 osl_statement_dispatch *)
Definition osl_statement_dispatch (l : list (list relation)) : res statement :=
  let dom := osl_relation_list_filter l TYPE_DOMAIN in
  let scat := osl_relation_list_filter l TYPE_SCATTERING in
  let acc := osl_relation_list_filter l TYPE_ACCESS in
  let nd := osl_relation_list_count dom in
  let ns := osl_relation_list_count scat in
  if 1 <? nd then Err
  else if 1 <? ns then Err
  else if negb (nd + ns + osl_relation_list_count acc =? osl_relation_list_count l) then Err
  else Ok (Statement (hd [] dom) (hd [] scat) acc []).
Fixpoint read_extensions (n : nat) (registry : list interf) (l : list generic) (f : file) : res (list generic * file) :=
  match n with
  | O => Ok (l, f)
  | S k =>
      '(g, f) <- osl_generic_read_one f registry ;;
      l <- osl_generic_add l g ;; read_extensions k registry l f
  end.
(** source/statement.c:436-459 osl_statement_pread on a non-NULL file *)
Definition osl_statement_pread (f : file) (registry : list interf) (p : Z) : res (statement * file) :=
  '(l, f) <- osl_relation_list_pread f p ;;
  s <- osl_statement_dispatch l ;;
  '(n, f) <- osl_util_read_int_f f ;;
  '(e, f) <- read_extensions (Z.to_nat n) registry [] f ;;
  Ok (Statement (st_domain s) (st_scattering s) (st_access s) e, f).
(** source/statement.c:469-476 osl_statement_read *)
Definition osl_statement_read (f : file) : res (statement * file) :=
  osl_statement_pread f default_registry (osl_util_get_precision env).
(** source/statement.c:548-556 osl_statement_number *)
Definition osl_statement_number (l : list statement) : Z := zlength l.
(** source/statement.c:669-708 osl_statement_equal on two different statements; NULL against a statement is undefined. *)
Fixpoint osl_statement_equal (a b : list statement) : res bool :=
  match a, b with
  | [], [] => Ok true
  | x :: a', y :: b' =>
      next <- match a', b' with
              | [], [] => Ok true
              | [], _ | _, [] => Ok false
              | _, _ => osl_statement_equal a' b'
              end ;;
      if negb next then Ok false else
      d <- osl_relation_equal (st_domain x) (st_domain y) ;; if negb d then Ok false else
      c <- osl_relation_equal (st_scattering x) (st_scattering y) ;; if negb c then Ok false else
      l <- osl_relation_list_equal (st_access x) (st_access y) ;; if negb l then Ok false else
      osl_generic_equal (st_ext x) (st_ext y)
  | _, _ => UB
  end.
Definition first_nout (u : list relation) : Z := match u with [] => UNDEFINED | r :: _ => nout r end.
(** source/statement.c:720-766 osl_statement_integrity_check *)
Fixpoint osl_statement_integrity_check (l : list statement) (ep : Z) : res bool :=
  match l with
  | [] => Ok true
  | s :: tl =>
      d <- osl_relation_integrity_check (st_domain s) TYPE_DOMAIN UNDEFINED 0 ep ;; if negb d then Ok false else
      let ei := first_nout (st_domain s) in
      c <- osl_relation_integrity_check (st_scattering s) TYPE_SCATTERING UNDEFINED ei ep ;; if negb c then Ok false else
      a <- osl_relation_list_integrity_check (st_access s) TYPE_ACCESS UNDEFINED ei ep ;; if negb a then Ok false else
      b <- body_of (st_ext s) ;;
      let bad := match b with
                 | Some (Body (Some it) _) => negb (ei =? UNDEFINED) && negb (ei mod 2 ^ 64 =? osl_strings_size (Some it))
                 | _ => false
                 end in
      if bad then Ok false else osl_statement_integrity_check tl ep
  end.
(** source/statement.c:775-782 osl_statement_get_nb_iterators on a statement *)
Definition osl_statement_get_nb_iterators (s : statement) : Z :=
  match st_domain s with [] => 0 | r :: _ => nout r end.
(** source/statement.c:840-856 osl_statement_get_body; NULL is [None] *)
Definition osl_statement_get_body (s : option statement) : res (option body) :=
  match s with
  | None => Ok None
  | Some s =>
      b <- body_of (st_ext s) ;;
      match b with
      | Some b => Ok (Some b)
      | None => match osl_generic_lookup (st_ext s) (uri_of KExtbody) with
                | None => Ok None
                | Some (DExtbody e) => Ok (eb_body e)
                | Some _ => UB
                end
      end
  end.

(** ** Scops (source/scop.c) *)
Record scop := Scop { sc_version : Z; sc_language : option str; sc_context : list relation;
                      sc_params : list generic; sc_stmts : list statement; sc_registry : list interf;
                      sc_ext : list generic }.

(** The loop of source/scop.c:913-938 osl_scop_get_attributes *)
Fixpoint scop_attributes (l : list scop) (loc a : attrs) : res attrs :=
  match l with
  | [] => Ok a
  | s :: tl =>
      loc <- osl_relation_get_attributes (sc_context s) loc ;;
      loc <- osl_statement_get_attributes (sc_stmts s) loc ;;
      scop_attributes tl loc (attrs_max a loc)
  end.
Definition osl_scop_get_attributes (l : list scop) (a : attrs) : res attrs := scop_attributes l undefined_attrs a.
(** source/scop.c:186-198 osl_scop_names *)
Definition osl_scop_names (l : list scop) : res names :=
  a <- osl_scop_get_attributes l undefined_attrs ;; names_of a.
(** source/scop.c:759-790 osl_scop_integrity_check *)
Definition first_npar (u : list relation) : Z := match u with [] => UNDEFINED | r :: _ => npar r end.
Fixpoint osl_scop_integrity_check (l : list scop) : res bool :=
  match l with
  | [] => Ok true
  | s :: tl =>
      c <- osl_relation_integrity_check (sc_context s) TYPE_CONTEXT UNDEFINED UNDEFINED UNDEFINED ;;
      if negb c then Ok false else
      b <- osl_statement_integrity_check (sc_stmts s) (first_npar (sc_context s)) ;;
      if negb b then Ok false else osl_scop_integrity_check tl
  end.
(** The parameter names of the first node of scop->parameters.  Simplification: NULL names are undefined even if no
    relation has parameters. *)
Definition with_parameters (n : names) (l : list generic) : res names :=
  match l with
  | g :: _ =>
      if has_uri g (uri_of KStrings)
      then match g_data g with
           | Some (DStrings s) => Ok (Names s (n_iters n) (n_scatt n) (n_locals n) (n_arrays n))
           | _ => UB
           end
      else Ok n
  | [] => Ok n
  end.
Definition with_arrays (n : names) (l : list generic) : res names :=
  match osl_generic_lookup l (uri_of KArrays) with
  | None => Ok n
  | Some (DArrays a) =>
      o <- osl_arrays_to_strings (Some a) ;;
      match o with
      | Some s => Ok (Names (n_params n) (n_iters n) (n_scatt n) (n_locals n) s)
      | None => UB
      end
  | Some _ => UB
  end.
(** One iteration of source/scop.c:207-291 osl_scop_print *)
Definition scop_print_one (s : scop) (n : names) : res str :=
  n <- with_parameters n (sc_params s) ;;
  n <- with_arrays n (sc_ext s) ;;
  c <- osl_relation_spprint (sc_context s) (Some n) ;;
  p <- osl_generic_sprint (sc_params s) ;;
  t <- osl_statement_pprint (sc_stmts s) (Some n) ;;
  e <- osl_generic_sprint (sc_ext s) ;;
  Ok (c_nl :: ln (tag_of uri_scop) ++ [c_nl]
      ++ rule_title (lit "Global") ++ ln (lit "# Language") ++ ln (pr (sc_language s)) ++ [c_nl]
      ++ ln (lit "# Context") ++ c ++ [c_nl]
      ++ osl_util_print_provided (osl_generic_has_URI (sc_params s) (uri_of KStrings)) (lit "Parameters are") ++ p
      ++ c_nl :: ln (lit "# Number of statements") ++ lnZ (osl_statement_number (sc_stmts s)) ++ [c_nl]
      ++ t
      ++ match sc_ext s with [] => [] | _ => rule_title (lit "Extensions") ++ e end
      ++ c_nl :: ln (endtag_of uri_scop) ++ [c_nl]).
(** OSL_RELEASE, include/osl/scop.h.in:70: the version of the package, some text on one line *)
Definition release : str := lit "0.9.5".
(** source/scop.c:207-291 osl_scop_print *)
Definition osl_scop_print (l : list scop) : res str :=
  match l with
  | [] => Ok (ln (lit "# NULL scop"))
  | _ =>
      _ <- osl_scop_integrity_check l ;;
      n <- osl_scop_names l ;;
      t <- print_all (fun s => scop_print_one s n) l ;;
      Ok (lit "# [File generated by the OpenScop Library " ++ release ++ ln (lit "]") ++ t)
  end.
Fixpoint read_statements (n : nat) (registry : list interf) (p : Z) (f : file) : res (list statement * file) :=
  match n with
  | O => Ok ([], f)
  | S k =>
      '(s, f) <- osl_statement_pread f registry p ;;
      '(l, f) <- read_statements k registry p f ;; Ok (s :: l, f)
  end.
(** One iteration of source/scop.c:410-501 osl_scop_pread after the start tag; the words after the first one of the language line are ignored. *)
Definition scop_pread_one (registry : list interf) (p : Z) (f : file) : res (scop * file) :=
  '(o, f) <- osl_strings_read f ;;
  match match o with Some s => elems s | None => [] end with
  | [] => Err
  | lang :: _ =>
      '(c, f) <- osl_relation_pread f p ;;
      '(b, f) <- osl_util_read_int_f f ;;
      '(ps, f) <- (if 0 <? b then osl_generic_read_one f registry else Ok (None, f)) ;;
      '(n, f) <- osl_util_read_int_f f ;;
      '(l, f) <- read_statements (Z.to_nat n) registry p f ;;
      '(e, f) <- osl_generic_read f registry ;;
      Ok (Scop 1 (Some lang) c (node ps) l registry e, f)
  end.
(** The loop of source/scop.c:410-501 osl_scop_pread; every iteration reads at least one character. *)
Fixpoint scops_pread (fuel : nat) (registry : list interf) (p : Z) (f : file) : res (list scop * file) :=
  match fuel with
  | O => OutOfFuel
  | S k =>
      '(t, f) <- osl_util_read_uptotag_f f uri_scop ;;
      match t with
      | None => Ok ([], f)
      | Some _ => '(s, f) <- scop_pread_one registry p f ;; '(l, f) <- scops_pread k registry p f ;; Ok (s :: l, f)
      end
  end.
(** source/scop.c:410-501 osl_scop_pread on a non-NULL file *)
Definition osl_scop_pread (f : file) (registry : list interf) (p : Z) : res (list scop * file) :=
  '(l, f) <- scops_pread (S (List.length (ftext f))) registry p f ;;
  _ <- osl_scop_integrity_check l ;; Ok (l, f).
(** source/scop.c:511-518 osl_scop_read *)
Definition osl_scop_read (f : file) : res (list scop * file) :=
  osl_scop_pread f default_registry (osl_util_get_precision env).
(** source/scop.c:702-750 osl_scop_equal on two different lists *)
Fixpoint osl_scop_equal (a b : list scop) : res bool :=
  match a, b with
  | [], [] => Ok true
  | x :: a', y :: b' =>
      if negb (sc_version x =? sc_version y) then Ok false else
      l <- strcmp_eq (sc_language x) (sc_language y) ;; if negb l then Ok false else
      c <- osl_relation_equal (sc_context x) (sc_context y) ;; if negb c then Ok false else
      p <- osl_generic_equal (sc_params x) (sc_params y) ;; if negb p then Ok false else
      s <- osl_statement_equal (sc_stmts x) (sc_stmts y) ;; if negb s then Ok false else
      r <- osl_interface_equal (hd_error (sc_registry x)) (hd_error (sc_registry y)) ;; if negb r then Ok false else
      e <- osl_generic_equal (sc_ext x) (sc_ext y) ;; if negb e then Ok false else
      osl_scop_equal a' b'
  | _, _ => Ok false
  end.
(** source/scop.c:861-868 osl_scop_get_nb_parameters on a scop *)
Definition osl_scop_get_nb_parameters (s : scop) : Z :=
  match sc_context s with [] => 0 | r :: _ => npar r end.
Definition max_nout (m : Z) (s : statement) : Z :=
  match st_scattering s with [] => m | r :: _ => Z.max m (nout r) end.
Definition normalize_statement (dim : Z) (s : statement) : res statement :=
  match st_scattering s with
  | [] => Ok s
  | u => u' <- osl_relation_extend_output u dim ;; Ok (Statement (st_domain s) u' (st_access s) (st_ext s))
  end.
(** source/scop.c:947-975 osl_scop_normalize_scattering: the resulting list; only the first scop is changed. *)
Definition osl_scop_normalize_scattering (l : list scop) : res (list scop) :=
  match l with
  | [] => Ok []
  | s :: tl =>
      let dim := fold_left max_nout (sc_stmts s) 0 in
      st <- mapM (normalize_statement dim) (sc_stmts s) ;;
      Ok (Scop (sc_version s) (sc_language s) (sc_context s) (sc_params s) st (sc_registry s) (sc_ext s) :: tl)
  end.

End SCOP.
