(** * ReadSpec: what a reader may do with an arbitrary input (C58)

    Value types of the models only.  Nothing is assumed of the text: it may be cut, garbage, or hostile. *)
From Verif Require Import Base IntModel Spec RelSpec RelationModel StringsModel ExtModel ScopModel.

(** A call ends: it returns, stops the program with an error, or meets undefined behaviour; it does not run for ever
    ([OutOfFuel] is the only other outcome of a model). *)
Definition ends {A} (call : res A) : Prop := call <> OutOfFuel.
(** [rest] is what is left of [text] once some of it has been read. *)
Definition rest_of (rest text : str) : Prop := exists consumed, text = consumed ++ rest.

(** The seven relation types that have a name in the OpenScop format. *)
Definition named_types : list Z :=
  [UNDEFINED; TYPE_CONTEXT; TYPE_DOMAIN; TYPE_SCATTERING; TYPE_READ; TYPE_WRITE; TYPE_MAY_WRITE].

Section READ.
Variable cfg : config.
(** A union read at precision [p]: at least one part, each with a matrix of the announced size, full of values of this
    precision. *)
Definition union_read (p : Z) (u : list relation) : Prop :=
  u <> [] /\ Forall (fun r => wf_rel cfg r /\ rprec r = p /\ In (rtype r) named_types) u.
(** A body: its iterators are NULL or an array, its expression is one string. *)
Definition body_read (b : body) : Prop :=
  match bo_iterators b with Some s => s <> None | None => True end /\
  exists e, bo_expression b = Some (Some [e]).
Definition lines_read (l : text_lines) : Prop := Forall (fun x => exists t, snd x = Some t) l.
Definition some_text (o : option str) : Prop := exists t, o = Some t.

(** Kinds of extensions whose data is never NULL after a successful reading. *)
Definition never_null (k : kind) : Prop :=
  k = KBody \/ k = KRelation \/ k = KArrays \/ k = KExtbody \/ k = KAnnotation.

(** The data of an extension of kind [k] read when the precision of the environment is [p]. *)
Fixpoint data_read (p : Z) (k : kind) (d : edata) : Prop :=
  match k, d with
  | KStrings, DStrings s => exists x l, s = Some (x :: l)
  | KBody, DBody b => body_read b
  | KRelation, DRelation u => union_read p u
  | KTextual, DTextual t => some_text t
  | KComment, DComment c => some_text c
  | KNull, DNull => True
  | KScatinfos, DScatinfos _ => True
  | KScatnames, DScatnames n => exists x l, n = Some (Some (x :: l))
  | KArrays, DArrays _ => True
  | KCoordinates, DCoordinates c => some_text (co_name c)
  | KClay, DClay c => some_text c
  | KDependence, DDependence l => l <> [] /\ Forall (fun x => union_read p (de_domain x) /\ List.length (de_dims x) = 8%nat) l
  | KSymbols, DSymbols l => l <> [] /\ fold_right (fun x P => symbol_read p x /\ P) True l
  | KExtbody, DExtbody e => match eb_body e with Some b => body_read b | None => False end
  | KLoop, DLoop l => l <> [] /\ Forall (fun x => some_text (lo_iter x)) l
  | KPlutoUnroll, DPlutoUnroll l => l <> [] /\ Forall (fun x => some_text (un_iter x) /\ 0 <= un_factor x < 2 ^ 32) l
  | KRegion, DRegion l =>
      l <> [] /\ Forall (fun r => lines_read (re_prefix r) /\ lines_read (re_suffix r) /\
                                  lines_read (re_prelude r) /\ lines_read (re_postlude r)) l
  | KAnnotation, DAnnotation a => lines_read (an_prefix a) /\ lines_read (an_suffix a)
  | _, _ => False
  end
(** A symbol: each of its four fields is NULL or one extension of the default registry. *)
with symbol_read (p : Z) (x : symbol) : Prop :=
  match x with
  | Symbol _ _ _ a b c e =>
      (fold_right (fun g P => generic_read p default_registry g /\ P) True a /\ (List.length a <= 1)%nat) /\
      (fold_right (fun g P => generic_read p default_registry g /\ P) True b /\ (List.length b <= 1)%nat) /\
      (fold_right (fun g P => generic_read p default_registry g /\ P) True c /\ (List.length c <= 1)%nat) /\
      (fold_right (fun g P => generic_read p default_registry g /\ P) True e /\ (List.length e <= 1)%nat)
  end
(** An extension: its interface is one of the registry, its data has the kind of the interface or is NULL. *)
with generic_read (p : Z) (registry : list interf) (g : generic) : Prop :=
  match g with
  | Generic (Some i) (Some d) => In i registry /\ if_uri i <> None /\ data_read p (if_kind i) d
  | Generic (Some i) None => In i registry /\ if_uri i <> None /\ ~ never_null (if_kind i)
  | Generic None _ => False
  end.
(** A list of extensions; if all of them have data, no URI appears twice. *)
Definition generics_read (p : Z) (registry : list interf) (l : list generic) : Prop :=
  Forall (generic_read p registry) l /\ (Forall (fun g => g_data g <> None) l -> NoDup (map g_uri l)).

(** A statement read at precision [p], with the precision [q] in the environment. *)
Definition typed (P : Z -> Prop) (u : list relation) : Prop := Forall (fun r => P (rtype r)) u.
Definition statement_read (p q : Z) (registry : list interf) (s : statement) : Prop :=
  (st_domain s = [] \/ union_read p (st_domain s) /\ typed (fun t => t = TYPE_DOMAIN) (st_domain s)) /\
  (st_scattering s = [] \/ union_read p (st_scattering s) /\ typed (fun t => t = TYPE_SCATTERING) (st_scattering s)) /\
  Forall (fun u => union_read p u /\ typed (fun t => In t [TYPE_READ; TYPE_WRITE; TYPE_MAY_WRITE]) u) (st_access s) /\
  generics_read q registry (st_ext s).
Definition scop_read (p q : Z) (registry : list interf) (s : scop) : Prop :=
  sc_version s = 1 /\ some_text (sc_language s) /\ sc_registry s = registry /\
  union_read p (sc_context s) /\
  Forall (generic_read q registry) (sc_params s) /\ (List.length (sc_params s) <= 1)%nat /\
  Forall (statement_read p q registry) (sc_stmts s) /\
  generics_read q registry (sc_ext s).
End READ.
