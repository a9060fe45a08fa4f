(** * PrintSpec: which scops can be printed (C53), and the names a printed scop uses

    The line buffers of the printing functions have a fixed size, so the number of columns and the length of the names are
    bounded; everything else is unbounded. *)
From Verif Require Import Base Spec RelSpec TextSpec ExprSpec RelationModel StringsModel RelTextModel ExtModel ScopModel ScopSpec.

Section PRINT.
Variable m : Z.            (* the longest name *)

(** Dimensions as the integrity check wants them, C ints as coefficients, and few enough columns. *)
Definition relation_fits (r : relation) : Prop :=
  coherent_dims r /\ Forall (Forall (fun v => - 2 ^ 31 < v <= 2 ^ 31 - 1)) (rows r) /\ ncols r * (m + 28) + m + 10 <= 2046.
Definition union_fits (u : list relation) : Prop := zlength u < 2 ^ 31 - 1 /\ Forall relation_fits u.

(** A relation inside an extension is printed alone, with generated names: if it is an access, it is one to a known array. *)
Definition alone_fits (u : list relation) : Prop := union_fits u /\ arrays_known u (2 ^ 31 - 1).
(** The text of all unrolling directives goes to one buffer. *)
Definition unroll_size (u : unroll) : Z := zlength (match un_iter u with Some i => i | None => [] end) + 62.
Fixpoint data_fits (d : edata) : Prop :=
  match d with
  | DRelation u => alone_fits u
  | DDependence l => Forall (fun x => alone_fits (de_domain x)) l
  | DPlutoUnroll l => fold_right (fun u n => unroll_size u + n) 0 l < 2000
  | DSymbols l => fold_right (fun x P => symbol_fits x /\ P) True l
  | _ => True
  end
with symbol_fits (x : symbol) : Prop :=
  match x with
  | Symbol t g n a b c e =>
      fold_right (fun x P => generic_fits x /\ P) True a /\ fold_right (fun x P => generic_fits x /\ P) True b /\
      fold_right (fun x P => generic_fits x /\ P) True c /\ fold_right (fun x P => generic_fits x /\ P) True e
  end
with generic_fits (g : generic) : Prop :=
  match g with Generic _ (Some d) => data_fits d | Generic _ None => True end.

(** ** The names *)
Definition short_name_list (l : list str) : Prop := Forall (fun w => zlength w <= m) l.
(** There are names for all parameters, iterators and arrays where the scop itself gives names. *)
Definition parameters_named (s : scop) : Prop :=
  forall i names rest, sc_params s = Generic i (Some (DStrings names)) :: rest ->
    short_name_list (elems names) /\ announced npar (sc_context s) <= zlength (elems names).
Definition iterators_named (st : statement) : Prop :=
  forall names e, carries (st_ext st) (lit "body") (DBody (Body (Some names) e)) ->
    short_name_list (elems names) /\
    Forall (Forall (fun r => nin r <= zlength (elems names))) (st_scattering st :: st_access st).
Definition arrays_named (s : scop) : Prop :=
  forall a, carries (sc_ext s) (lit "arrays") (DArrays a) ->
    Forall (fun x : Z * str => 1 <= fst x /\ zlength (snd x) <= m) a /\
    Forall (fun st => Forall (Forall (fun r => forall n, fixes_array r n -> exists x, In x a /\ n <= fst x)) (st_access st)) (sc_stmts s).

(** The lines of the text of an extension are short. *)
Definition extension_fits {cfg : config} (g : generic) : Prop :=
  generic_fits g /\ forall text, osl_generic_sprint [g] = Ok text -> short_lines text.
Definition scop_fits {cfg : config} (s : scop) : Prop :=
  Forall union_fits (relations_of_scop s) /\
  parameters_named s /\ Forall iterators_named (sc_stmts s) /\ arrays_named s /\
  Forall extension_fits (sc_params s) /\ Forall (fun st => Forall extension_fits (st_ext st)) (sc_stmts s) /\
  Forall extension_fits (sc_ext s).
End PRINT.

(** ** The names shown *)
(** Names generated for [n] things: prefix1, prefix2, ... *)
Definition generated_names (prefix : str) (n : Z) : list str :=
  map (fun i => prefix ++ IntModel.print_Z (Z.of_nat i)) (seq 1 (Z.to_nat n)).
(** What an iterator, parameter or array is called: as the scop says, or by a generated name. *)
Definition iterators_shown (st : statement) (generated : list str) (l : list str) : Prop :=
  (forall names e, carries (st_ext st) (lit "body") (DBody (Body (Some names) e)) -> l = elems names) /\
  ((forall names e, ~ carries (st_ext st) (lit "body") (DBody (Body (Some names) e))) -> l = generated).
Definition parameters_shown (s : scop) (generated : list str) (l : list str) : Prop :=
  (forall k names rest, sc_params s = Generic (Some (Iface (Some (lit "strings")) k)) (Some (DStrings names)) :: rest -> l = elems names) /\
  ((forall k d rest, sc_params s <> Generic (Some (Iface (Some (lit "strings")) k)) d :: rest) -> l = generated).
Definition arrays_shown (s : scop) (generated : list str) (l : list str) : Prop :=
  (forall a id name pre post, carries (sc_ext s) (lit "arrays") (DArrays a) -> a = pre ++ (id, name) :: post ->
     ~ In id (map fst post) -> nth_error l (Z.to_nat (id - 1)) = Some name) /\
  (forall a k, carries (sc_ext s) (lit "arrays") (DArrays a) -> 1 <= k -> ~ In k (map fst a) -> (exists x, In x a /\ k <= fst x) ->
     nth_error l (Z.to_nat (k - 1)) = Some (lit "Dummy" ++ IntModel.print_Z k)) /\
  ((forall d, ~ carries (sc_ext s) (lit "arrays") d) -> l = generated).

(** [u] is printed somewhere in [text] with these names for parameters, iterators, scattering dimensions, local dimensions and arrays. *)
Definition shown_with {cfg : config} (P I S L A : list str) (text : str) (u : list relation) : Prop :=
  exists n t, elems (n_params n) = P /\ elems (n_iters n) = I /\ elems (n_scatt n) = S /\ elems (n_locals n) = L /\ elems (n_arrays n) = A /\
    osl_relation_spprint u (Some n) = Ok t /\ occurs t text.

(** ** Tags *)
(** The names of the extensions of the OpenScop format. *)
Definition tag_table : list (kind * str) :=
  [(KStrings, lit "strings"); (KBody, lit "body"); (KRelation, lit "relation"); (KTextual, lit "textual"); (KComment, lit "comment");
   (KNull, lit "null"); (KScatinfos, lit "scatinfos"); (KScatnames, lit "scatnames"); (KArrays, lit "arrays"); (KCoordinates, lit "coordinates");
   (KClay, lit "clay"); (KDependence, lit "dependence"); (KSymbols, lit "symbols"); (KExtbody, lit "extbody"); (KLoop, lit "loop");
   (KPlutoUnroll, lit "pluto_unroll"); (KRegion, lit "region"); (KAnnotation, lit "annotation")].
