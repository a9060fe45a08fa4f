(** * CloneModel: copies of extensions, symbols, statements and scops as values, and the rest of source/scop.c

    The heap side of these copies (fresh nodes, nothing shared) is in HeapObjects.v, where the data of an extension is
    one opaque block; here the data is copied field by field, by the clone function of its interface. *)
From Verif Require Import Base IntModel VectorModel RelationModel UtilModel StringsModel RelTextModel ExtModel ScopModel.

Section CLONE.
Context {cfg : config}.

(** ** Interfaces *)
(** source/interface.c:173-196 osl_interface_add on a list [new] (the check of every new node against the old list, then the link). *)
Fixpoint interfaces_fit (l new : list interf) : res unit :=
  match new with
  | [] => Ok tt
  | i :: tl =>
      match if_uri i with
      | None => Err
      | Some u => match osl_interface_lookup l u with Some _ => Err | None => interfaces_fit l tl end
      end
  end.
Definition osl_interface_add (l new : list interf) : res (list interf) :=
  interfaces_fit l new ;;; Ok (l ++ new).
(** The loop of source/interface.c:272-293 osl_interface_nclone: [i] nodes are copied in [clone]. *)
Fixpoint interface_nclone_loop (l : list interf) (n i : Z) (clone : list interf) : res (list interf) :=
  match l with
  | [] => Ok clone
  | x :: tl =>
      if (n =? -1) || (i <? n) then
        clone <- osl_interface_add clone [Iface (OSL_strdup (if_uri x)) (if_kind x)] ;;
        interface_nclone_loop tl n (i + 1) clone
      else Ok clone
  end.
Definition osl_interface_nclone (l : list interf) (n : Z) : res (list interf) := interface_nclone_loop l n 0 [].
(** source/interface.c:302-304 osl_interface_clone *)
Definition osl_interface_clone (l : list interf) : res (list interf) := osl_interface_nclone l (-1).
(** source/interface.c:254-262 osl_interface_number *)
Definition osl_interface_number (l : list interf) : Z := zlength l.

(** ** Extensions and symbols *)
(** clone(NULL) of the interfaces: NULL, except for annotations (dereferenced). *)
Definition null_clone (k : kind) : res (option edata) := match k with KAnnotation => UB | _ => Ok None end.
(** The loop of source/generic.c:527-552 osl_generic_nclone, [n] nodes left to copy; [f] makes the copy of a node, NULL when it has no interface. *)
Definition generics_nclone (f : generic -> res (option generic)) : Z -> list generic -> list generic -> res (list generic) :=
  fix go n l clone :=
    match l with
    | [] => Ok clone
    | g :: tl =>
        if 0 <? n then
          o <- f g ;;
          clone <- osl_generic_add clone o ;;
          go (n - 1) tl clone
        else Ok clone
    end.
(** The loop of source/extensions/symbols.c:461-481 osl_symbols_nclone; source/extensions/symbols.c:446-451 osl_symbols_add appends. *)
Definition symbols_nclone_loop (f : symbol -> res symbol) : Z -> Z -> list symbol -> list symbol -> res (list symbol) :=
  fix go n i l clone :=
    match l with
    | [] => Ok clone
    | x :: tl =>
        if (n =? -1) || (i <? n) then new <- f x ;; go n (i + 1) tl (clone ++ [new]) else Ok clone
    end.
Definition lift {A} (f : A -> edata) (r : res (option A)) : res (option edata) :=
  o <- r ;; Ok (option_map f o).
(** The clone functions of the interfaces; one node of source/extensions/symbols.c:461-481 osl_symbols_nclone; one node of source/generic.c:527-552 osl_generic_nclone. *)
Fixpoint data_clone (k : kind) (d : edata) {struct d} : res (option edata) :=
  match k, d with
  | KStrings, DStrings s => Ok (option_map DStrings (osl_strings_clone (Some s)))
  | KBody, DBody b => Ok (option_map DBody (osl_body_clone (Some b)))
  | KRelation, DRelation u => u <- osl_relation_clone u ;; Ok (some_list DRelation u)
  | KTextual, DTextual t => Ok (option_map DTextual (osl_textual_clone (Some t)))
  | KComment, DComment c => Ok (option_map DComment (osl_comment_clone (Some c)))
  | KNull, DNull => Ok (option_map (fun _ => DNull) (osl_null_clone (Some tt)))
  | KScatinfos, DScatinfos i => lift DScatinfos (osl_scatinfos_clone (Some i))
  | KScatnames, DScatnames n => Ok (option_map DScatnames (osl_scatnames_clone (Some n)))
  | KArrays, DArrays a => lift DArrays (osl_arrays_clone (Some a))
  | KCoordinates, DCoordinates c => Ok (option_map DCoordinates (osl_coordinates_clone (Some c)))
  | KClay, DClay c => Ok (option_map DClay (osl_clay_clone (Some c)))
  | KDependence, DDependence l => l <- osl_dependence_clone l ;; Ok (some_list DDependence l)
  | KSymbols, DSymbols l => l <- symbols_nclone_loop symbol_clone (-1) 0 l [] ;; Ok (some_list DSymbols l)
  | KExtbody, DExtbody e => lift DExtbody (osl_extbody_clone (Some e))
  | KLoop, DLoop l => l <- osl_loop_clone l ;; Ok (some_list DLoop l)
  | KPlutoUnroll, DPlutoUnroll l => Ok (some_list DPlutoUnroll (osl_pluto_unroll_clone l))
  | KRegion, DRegion l => l <- osl_region_clone l ;; Ok (some_list DRegion l)
  | KAnnotation, DAnnotation a => a <- osl_annotation_clone (Some a) ;; Ok (Some (DAnnotation a))
  | _, _ => UB
  end
with symbol_clone (x : symbol) {struct x} : res symbol :=
  match x with
  | Symbol ty gen dims a b c e =>
      a <- generics_nclone generic_clone_one (osl_generic_number a) a [] ;;
      b <- generics_nclone generic_clone_one (osl_generic_number b) b [] ;;
      c <- generics_nclone generic_clone_one (osl_generic_number c) c [] ;;
      e <- generics_nclone generic_clone_one (osl_generic_number e) e [] ;;
      Ok (Symbol ty gen dims a b c e)
  end
with generic_clone_one (g : generic) {struct g} : res (option generic) :=
  match g with
  | Generic None _ => Ok None
  | Generic (Some i) d =>
      x <- match d with None => null_clone (if_kind i) | Some d => data_clone (if_kind i) d end ;;
      l <- osl_interface_clone [i] ;;
      Ok (Some (Generic (hd_error l) x))
  end.
(** source/generic.c:527-552 osl_generic_nclone *)
Definition osl_generic_nclone (l : list generic) (n : Z) : res (list generic) :=
  generics_nclone generic_clone_one (if n <? 0 then osl_generic_number l else n) l [].
(** source/generic.c:515-517 osl_generic_clone *)
Definition osl_generic_clone (l : list generic) : res (list generic) := osl_generic_nclone l (-1).
(** source/extensions/symbols.c:461-481 osl_symbols_nclone *)
Definition osl_symbols_nclone (l : list symbol) (n : Z) : res (list symbol) := symbols_nclone_loop symbol_clone n 0 l [].
(** source/extensions/symbols.c:490-492 osl_symbols_clone *)
Definition osl_symbols_clone (l : list symbol) : res (list symbol) := osl_symbols_nclone l (-1).
(** source/extensions/symbols.c:446-451 osl_symbols_add *)
Definition osl_symbols_add (l new : list symbol) : list symbol := l ++ new.
(** source/extensions/symbols.c:532-540 osl_symbols_get_nb_symbols *)
Fixpoint symbols_count (l : list symbol) (n : Z) : Z := match l with [] => n | _ :: tl => symbols_count tl (n + 1) end.
Definition osl_symbols_get_nb_symbols (l : list symbol) : Z := symbols_count l 0.

(** ** Names (source/names.c): [None] is NULL *)
(** source/names.c:218-230 osl_names_clone *)
Definition osl_names_clone (n : option names) : option names :=
  match n with
  | None => None
  | Some n =>
      let copy s := match osl_strings_clone (Some s) with Some s' => s' | None => None end in
      Some (Names (copy (n_params n)) (copy (n_iters n)) (copy (n_scatt n)) (copy (n_locals n)) (copy (n_arrays n)))
  end.

(** ** Statements and scops *)
(** source/relation_list.c:438-459 osl_relation_list_clone *)
Fixpoint osl_relation_list_clone (l : list (list relation)) : res (list (list relation)) :=
  match l with
  | [] => Ok []
  | u :: tl => u <- osl_relation_clone u ;; r <- osl_relation_list_clone tl ;; Ok (u :: r)
  end.
(** The loop of source/statement.c:566-592 osl_statement_nclone; [i] nodes are copied. *)
Fixpoint statement_nclone_loop (l : list statement) (n i : Z) : res (list statement) :=
  match l with
  | [] => Ok []
  | s :: tl =>
      if (n =? -1) || (i <? n) then
        d <- osl_relation_clone (st_domain s) ;;
        c <- osl_relation_clone (st_scattering s) ;;
        a <- osl_relation_list_clone (st_access s) ;;
        e <- osl_generic_clone (st_ext s) ;;
        r <- statement_nclone_loop tl n (i + 1) ;;
        Ok (Statement d c a e :: r)
      else Ok []
  end.
Definition osl_statement_nclone (l : list statement) (n : Z) : res (list statement) := statement_nclone_loop l n 0.
(** source/statement.c:601-603 osl_statement_clone *)
Definition osl_statement_clone (l : list statement) : res (list statement) := osl_statement_nclone l (-1).
(** source/scop.c:614-642 osl_scop_clone *)
Fixpoint osl_scop_clone (l : list scop) : res (list scop) :=
  match l with
  | [] => Ok []
  | s :: tl =>
      c <- osl_relation_clone (sc_context s) ;;
      p <- osl_generic_clone (sc_params s) ;;
      t <- osl_statement_clone (sc_stmts s) ;;
      r <- osl_interface_clone (sc_registry s) ;;
      e <- osl_generic_clone (sc_ext s) ;;
      n <- osl_scop_clone tl ;;
      Ok (Scop (sc_version s) (match sc_language s with Some _ => OSL_strdup (sc_language s) | None => None end) c p t r e :: n)
  end.
(** source/scop.c:596-604 osl_scop_number *)
Fixpoint scops_count (l : list scop) (n : Z) : Z := match l with [] => n | _ :: tl => scops_count tl (n + 1) end.
Definition osl_scop_number (l : list scop) : Z := scops_count l 0.
(** source/scop.c:582-587 osl_scop_add *)
Definition osl_scop_add (l new : list scop) : list scop := l ++ new.

(** source/scop.c:879-893 osl_scop_register_extension on a scop and an interface list [i :: tl]: what osl_generic_lookup returns is the data of the
    extension, used as if it were the extension itself; reading it as such is undefined. *)
Definition osl_scop_register_extension (s : scop) (new : list interf) : res scop :=
  match new with
  | [] => Ok s
  | i :: _ =>
      r <- osl_interface_add (sc_registry s) new ;;
      match if_uri i with
      | None => Err
      | Some u =>
          match osl_generic_lookup (sc_ext s) u with
          | Some _ => UB
          | None => Ok (Scop (sc_version s) (sc_language s) (sc_context s) (sc_params s) (sc_stmts s) r (sc_ext s))
          end
      end
  end.

(** The checks of source/scop.c:799-853 osl_scop_check_compatible_scoplib on one statement; OSL_error stops the program. *)
Definition minus_identity (p : Z) (r : relation) : res unit :=
  cfor 0 (nrows r) (fun i _ =>
    cfor 0 (nout r) (fun j _ =>
      x <- mget (rm r) i (j + 1) ;;
      b <- (if i =? j then osl_int_mone p x else osl_int_zero p x) ;;
      if b then Ok tt else Err) tt) tt.
Definition scoplib_statement (p : Z) (s : statement) : res unit :=
  match st_scattering s with
  | [] => UB
  | r :: _ =>
      if negb (nloc r =? 0) then Err
      else if existsb (fun d => negb (nloc d =? 0)) (st_domain s) then Err
      else minus_identity p r
  end.
(** source/scop.c:799-853 osl_scop_check_compatible_scoplib: the list is dereferenced before it is compared with NULL. *)
Definition osl_scop_check_compatible_scoplib (l : list scop) : res bool :=
  b <- osl_scop_integrity_check l ;;
  if negb b then Ok false
  else match l with
       | [] => UB
       | _ :: _ :: _ => Ok false
       | [s] =>
           match sc_stmts s with
           | [] => Ok true
           | st :: _ =>
               match st_scattering st with
               | [] => UB
               | r :: _ => mapM (scoplib_statement (rprec r)) (sc_stmts s) ;;; Ok true
               end
           end
       end.

(** ** Small constructors of the extensions *)
(** source/extensions/extbody.c:243-252 osl_extbody_malloc *)
Definition osl_extbody_malloc : extbody := Extbody [] None.
(** source/extensions/extbody.c:374-382 osl_extbody_add *)
Definition osl_extbody_add (e : extbody) (start length : Z) : extbody :=
  Extbody (eb_access e ++ [(start, length)]) (eb_body e).
(** osl_annotation_text_append, source/extensions/annotation.c:84-104; osl_region_text_append,
    source/extensions/region.c:83-103 *)
Definition text_append (l : text_lines) (type : Z) (line : option str) : text_lines := l ++ [(type, line)].
(** source/extensions/annotation.c:280-291 osl_annotation_malloc *)
Definition osl_annotation_malloc : annotation := Annotation [] [].
(** source/extensions/annotation.c:167-170 osl_annotation_append_prefix *)
Definition osl_annotation_append_prefix (a : annotation) (type : Z) (line : option str) : annotation :=
  Annotation (text_append (an_prefix a) type line) (an_suffix a).
(** source/extensions/annotation.c:172-175 osl_annotation_append_suffix *)
Definition osl_annotation_append_suffix (a : annotation) (type : Z) (line : option str) : annotation :=
  Annotation (an_prefix a) (text_append (an_suffix a) type line).
(** source/extensions/region.c:342-359 osl_region_malloc *)
Definition osl_region_malloc : region := Region 0 [] [] [] [].
(** source/extensions/region.c:165-168 osl_region_append_prefix *)
Definition osl_region_append_prefix (r : region) (type : Z) (line : option str) : region :=
  Region (re_location r) (text_append (re_prefix r) type line) (re_suffix r) (re_prelude r) (re_postlude r).
(** source/extensions/region.c:170-173 osl_region_append_suffix *)
Definition osl_region_append_suffix (r : region) (type : Z) (line : option str) : region :=
  Region (re_location r) (re_prefix r) (text_append (re_suffix r) type line) (re_prelude r) (re_postlude r).
(** source/extensions/region.c:175-178 osl_region_append_prelude *)
Definition osl_region_append_prelude (r : region) (type : Z) (line : option str) : region :=
  Region (re_location r) (re_prefix r) (re_suffix r) (text_append (re_prelude r) type line) (re_postlude r).
(** source/extensions/region.c:180-183 osl_region_append_postlude *)
Definition osl_region_append_postlude (r : region) (type : Z) (line : option str) : region :=
  Region (re_location r) (re_prefix r) (re_suffix r) (re_prelude r) (text_append (re_postlude r) type line).
(** source/extensions/region.c:440-446 osl_region_count *)
Fixpoint regions_count (l : list region) (n : Z) : Z := match l with [] => n | _ :: tl => regions_count tl (n + 1) end.
Definition osl_region_count (l : list region) : Z := regions_count l 0.

End CLONE.
