(** * CloneSpec: what a clone function can copy (C44), and which scops fit SCoPLib (C45)

    Value types of the models only. *)
From Verif Require Import Base IntModel Spec RelSpec RelationModel StringsModel ExtModel ScopModel.

(** A strings object with an array, as osl_strings_malloc and every other function of the API make it. *)
Definition has_array (s : strings) : Prop := s <> None.
Definition no_or_array (s : option strings) : Prop := match s with Some s => has_array s | None => True end.
(** Text whose lines are not NULL *)
Definition lines_present (l : text_lines) : Prop := Forall (fun x => snd x <> None) l.

Section CLONABLE.
Variable cfg : config.
(** Data that matches the kind of its interface: its relations are well formed, its lines of text are not NULL, its strings
    have an array, and the extensions of its symbols are clonable and have distinct URIs. *)
Fixpoint clonable (k : kind) (d : edata) : Prop :=
  match k, d with
  | KStrings, DStrings s => has_array s
  | KBody, DBody b => no_or_array (bo_iterators b) /\ no_or_array (bo_expression b)
  | KRelation, DRelation u => u <> [] /\ Forall (wf_rel cfg) u
  | KTextual, DTextual _ | KComment, DComment _ | KNull, DNull | KScatinfos, DScatinfos _ | KArrays, DArrays _
  | KCoordinates, DCoordinates _ | KClay, DClay _ => True
  | KScatnames, DScatnames s => no_or_array s
  | KDependence, DDependence l => l <> [] /\ Forall (fun x => Forall (wf_rel cfg) (de_domain x)) l
  | KSymbols, DSymbols l => l <> [] /\ fold_right (fun x P => clonable_symbol x /\ P) True l
  | KExtbody, DExtbody e =>
      match eb_body e with Some b => no_or_array (bo_iterators b) /\ no_or_array (bo_expression b) | None => True end
  | KLoop, DLoop l => l <> []
  | KPlutoUnroll, DPlutoUnroll l => l <> []
  | KRegion, DRegion l =>
      l <> [] /\ Forall (fun r => lines_present (re_prefix r) /\ lines_present (re_suffix r) /\
                                  lines_present (re_prelude r) /\ lines_present (re_postlude r)) l
  | KAnnotation, DAnnotation a => lines_present (an_prefix a) /\ lines_present (an_suffix a)
  | _, _ => False
  end
with clonable_symbol (x : symbol) : Prop :=
  match x with
  | Symbol _ _ _ a b c e =>
      (fold_right (fun x P => clonable_generic x /\ P) True a /\ NoDup (map g_uri a)) /\
      (fold_right (fun x P => clonable_generic x /\ P) True b /\ NoDup (map g_uri b)) /\
      (fold_right (fun x P => clonable_generic x /\ P) True c /\ NoDup (map g_uri c)) /\
      (fold_right (fun x P => clonable_generic x /\ P) True e /\ NoDup (map g_uri e))
  end
(** An extension with an interface that has a URI; its data may be NULL, except for an annotation. *)
with clonable_generic (g : generic) : Prop :=
  match g with
  | Generic (Some (Iface (Some _) k)) (Some d) => clonable k d
  | Generic (Some (Iface (Some _) k)) None => k <> KAnnotation
  | _ => False
  end.
Definition clonable_generics (l : list generic) : Prop := Forall clonable_generic l /\ NoDup (map g_uri l).
Definition clonable_interfaces (l : list interf) : Prop := NoDup (map if_uri l) /\ Forall (fun i => if_uri i <> None) l.
Definition clonable_statement (s : statement) : Prop :=
  Forall (wf_rel cfg) (st_domain s) /\ Forall (wf_rel cfg) (st_scattering s) /\
  Forall (Forall (wf_rel cfg)) (st_access s) /\ clonable_generics (st_ext s).
Definition clonable_scop (s : scop) : Prop :=
  Forall (wf_rel cfg) (sc_context s) /\ clonable_generics (sc_params s) /\
  Forall clonable_statement (sc_stmts s) /\ clonable_interfaces (sc_registry s) /\ clonable_generics (sc_ext s).
End CLONABLE.

(** Data whose equality function accepts a copy: the names it compares with strcmp are not NULL, and it is not a region
    (C33_region_equal_refuted) nor a list of loops of which only some have a private list or a user string
    (C33_loop_equal_refuted). *)
Definition all_or_none {A B} (f : A -> option B) (l : list A) : Prop :=
  Forall (fun x => f x = None) l \/ Forall (fun x => f x <> None) l.
Fixpoint self_comparable (d : edata) : Prop :=
  match d with
  | DComment c => c <> None
  | DClay c => c <> None
  | DCoordinates c => co_name c <> None
  | DRegion _ => False
  | DLoop l => Forall (fun x => lo_iter x <> None) l /\ all_or_none lo_private l /\ all_or_none lo_user l
  | DSymbols l => fold_right (fun x P => self_comparable_symbol x /\ P) True l
  | _ => True
  end
with self_comparable_symbol (x : symbol) : Prop :=
  match x with
  | Symbol _ _ _ a b c e =>
      fold_right (fun x P => self_comparable_generic x /\ P) True a /\ fold_right (fun x P => self_comparable_generic x /\ P) True b /\
      fold_right (fun x P => self_comparable_generic x /\ P) True c /\ fold_right (fun x P => self_comparable_generic x /\ P) True e
  end
with self_comparable_generic (g : generic) : Prop :=
  match g with
  | Generic _ (Some d) => self_comparable d
  | Generic (Some (Iface _ k)) None => k <> KRegion
  | Generic None None => True
  end.
Definition self_comparable_scop (s : scop) : Prop :=
  sc_language s <> None /\ Forall self_comparable_generic (sc_params s) /\
  Forall (fun st => Forall self_comparable_generic (st_ext st)) (sc_stmts s) /\ Forall self_comparable_generic (sc_ext s).

(** ** SCoPLib *)
(** The coefficients of the output dimensions are those of the opposite of the identity, one row per dimension and in
    order; any further row does not use them. *)
Definition minus_identity_outputs (r : relation) : Prop :=
  forall i j, 0 <= i < nrows r -> 0 <= j < nout r -> component (nth (Z.to_nat i) (rm r) []) (j + 1) = if i =? j then -1 else 0.
(** A statement in the style of SCoPLib: no local dimension, and a scattering that gives each time dimension as a
    function of the iterators. *)
Definition scoplib_style (s : statement) : Prop :=
  Forall (fun r => nloc r = 0) (st_domain s) /\
  exists r rest, st_scattering s = r :: rest /\ nloc r = 0 /\ minus_identity_outputs r.
(** All the scatterings exist and have one precision. *)
Definition scattered (p : Z) (s : statement) : Prop :=
  exists r rest, st_scattering s = r :: rest /\ rprec r = p.
