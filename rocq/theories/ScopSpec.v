(** * ScopSpec: what the statements about statements and scops mean (C16, C19, C36)

    Only value types of the models are used, and osl_relation_get_array_id for the identifier of an access (its
    meaning is C18). *)
From Verif Require Import Base Spec RelSpec RelationModel StringsModel ExtModel ScopModel.

(** The first extension of URI [uri] in the list carries [d]. *)
Definition carries (l : list generic) (uri : str) (d : edata) : Prop :=
  exists pre k post, l = pre ++ Generic (Some (Iface (Some uri) k)) (Some d) :: post /\
    Forall (fun g => forall k' d', g <> Generic (Some (Iface (Some uri) k')) d') pre.

(** ** C36 *)
(** The value a union announces in its first part, -1 for NULL. *)
Definition announced (f : relation -> Z) (u : list relation) : Z := match u with [] => -1 | r :: _ => f r end.

Definition coherent_statement (nb_parameters : Z) (s : statement) : Prop :=
  let nb_iterators := announced nout (st_domain s) in
  coherent (st_domain s) TYPE_DOMAIN (-1) 0 nb_parameters /\
  coherent (st_scattering s) TYPE_SCATTERING (-1) nb_iterators nb_parameters /\
  Forall (fun u => coherent u TYPE_ACCESS (-1) nb_iterators nb_parameters) (st_access s) /\
  (forall its e, st_domain s <> [] -> carries (st_ext s) (lit "body") (DBody (Body (Some its) e)) ->
     Z.of_nat (List.length (elems its)) = nb_iterators).
Definition coherent_scop (s : scop) : Prop :=
  coherent (sc_context s) TYPE_CONTEXT (-1) (-1) (-1) /\
  Forall (coherent_statement (announced npar (sc_context s))) (sc_stmts s).

(** Every relation of a statement or of a scop. *)
Definition relations_of_statement (s : statement) : list (list relation) :=
  st_domain s :: st_scattering s :: st_access s.
Definition relations_of_statements (l : list statement) : list (list relation) := flat_map relations_of_statement l.
Definition relations_of_scop (s : scop) : list (list relation) := sc_context s :: relations_of_statements (sc_stmts s).
Definition relations_of_scops (l : list scop) : list (list relation) := flat_map relations_of_scop l.

(** C objects: int fields, and arrays of strings smaller than the address space. *)
Definition c_sizes (s : scop) : Prop :=
  Forall (fun st => (forall r, In r (st_domain st) -> c_int (nout r)) /\
            forall its e, carries (st_ext st) (lit "body") (DBody (Body (Some its) e)) ->
              Z.of_nat (List.length (elems its)) < 2 ^ 63) (sc_stmts s).
(** The data stored under the URI of bodies are bodies. *)
Definition bodies_are_bodies (s : scop) : Prop :=
  Forall (fun st => forall d, carries (st_ext st) (lit "body") d -> exists b, d = DBody b) (sc_stmts s).

(** ** C19 *)
Section ATTRIBUTES.
Context {cfg : config}.
(** [v] is at least the attribute [w] of every part of every visited union. *)
Definition bounds (visited : list (list relation)) (w : attribute) (v : Z) : Prop :=
  forall u pre part post, In u visited -> u = pre ++ part :: post ->
    exists id, (access_type (rtype part) -> osl_relation_get_array_id (part :: post) = Ok id) /\
      attribute_of w part id <= v.
(** [v] is the attribute [w] of some part of a visited union. *)
Definition reached (visited : list (list relation)) (w : attribute) (v : Z) : Prop :=
  exists u pre part post id, In u visited /\ u = pre ++ part :: post /\
    (access_type (rtype part) -> osl_relation_get_array_id (part :: post) = Ok id) /\
    v = attribute_of w part id.
(** [v] is the maximum of [old] and of the attributes visited (or OSL_UNDEFINED, -1, when [old] is less). *)
Definition maximum_of (visited : list (list relation)) (w : attribute) (old v : Z) : Prop :=
  old <= v /\ bounds visited w v /\ (v = old \/ v = -1 \/ reached visited w v).
End ATTRIBUTES.
