(** * AlikeSpec: what the comparisons of extensions, symbols, statements and scops compare (C61) *)
From Verif Require Import Base IntModel RelationModel StringsModel ExtModel ScopModel.

(** Two loops with as many statements, the statements of the first one being statements of the second one, and the same rest. *)
Definition alike_loop (a b : loop) : Prop :=
  lo_iter a = lo_iter b /\ List.length (lo_stmts a) = List.length (lo_stmts b) /\ incl (lo_stmts a) (lo_stmts b) /\
  lo_private a = lo_private b /\ lo_directive a = lo_directive b /\ lo_user a = lo_user b.
(** Data of two extensions: the same, but for the kinds of which the library compares less. *)
Fixpoint alike_data (d1 d2 : edata) {struct d1} : Prop :=
  match d1, d2 with
  | DTextual _, DTextual _ | DComment _, DComment _ => True
  | DArrays a, DArrays b => List.length a = List.length b /\ incl a b
  | DExtbody a, DExtbody b => List.length (eb_access a) = List.length (eb_access b) /\ incl (eb_access a) (eb_access b) /\ eb_body a = eb_body b
  | DLoop a, DLoop b => List.length a = List.length b /\ Forall (fun x => exists y, In y b /\ alike_loop x y) a
  | DSymbols (x :: _), DSymbols (y :: _) => alike_symbol x y
  | DRegion _, DRegion _ => False
  | _, _ => d1 = d2
  end
with alike_symbol (x y : symbol) {struct x} : Prop :=
  match x, y with
  | Symbol t1 g1 n1 a1 b1 c1 e1, Symbol t2 g2 n2 a2 b2 c2 e2 =>
      t1 = t2 /\ g1 = g2 /\ n1 = n2 /\
      (List.length a1 = List.length a2 /\ fold_right (fun x P => (exists y, In y a2 /\ alike_generic x y) /\ P) True a1) /\
      (List.length b1 = List.length b2 /\ fold_right (fun x P => (exists y, In y b2 /\ alike_generic x y) /\ P) True b1) /\
      (List.length c1 = List.length c2 /\ fold_right (fun x P => (exists y, In y c2 /\ alike_generic x y) /\ P) True c1) /\
      (List.length e1 = List.length e2 /\ fold_right (fun x P => (exists y, In y e2 /\ alike_generic x y) /\ P) True e1)
  end
(** Two extensions with the same URI and the same functions; when one has NULL data the other one has NULL data too, unless they are textual. *)
with alike_generic (x y : generic) {struct x} : Prop :=
  match x with
  | Generic i d =>
      i = g_iface y /\
      match d, g_data y with
      | None, None => True
      | Some d, Some d' => alike_data d d'
      | _, _ => exists u, i = Some (Iface u KTextual)
      end
  end.
(** Lists of extensions: as many, and each one has its counterpart, wherever it is. *)
Definition alike_generics (l1 l2 : list generic) : Prop :=
  List.length l1 = List.length l2 /\ Forall (fun x => exists y, In y l2 /\ alike_generic x y) l1.
Definition alike_statement (s1 s2 : statement) : Prop :=
  st_domain s1 = st_domain s2 /\ st_scattering s1 = st_scattering s2 /\ st_access s1 = st_access s2 /\ alike_generics (st_ext s1) (st_ext s2).
(** Of the registries the first interfaces only are compared. *)
Definition alike_scop (s1 s2 : scop) : Prop :=
  sc_version s1 = sc_version s2 /\ sc_language s1 = sc_language s2 /\ sc_context s1 = sc_context s2 /\ alike_generics (sc_params s1) (sc_params s2) /\
  Forall2 alike_statement (sc_stmts s1) (sc_stmts s2) /\ hd_error (sc_registry s1) = hd_error (sc_registry s2) /\ alike_generics (sc_ext s1) (sc_ext s2).
(** The answer of a comparison, when there is one, is the truth. *)
Definition answers (r : res bool) (P : Prop) : Prop := forall b, r = Ok b -> (b = true <-> P).

(** Data the comparison of which always gives an answer: its names are there, the loops have a private list ([p]) and a user string
    ([u]) all or none, and it is not a region. *)
Section SETTLED.
Variables p u : bool.
Definition settled_loop (x : loop) : Prop :=
  lo_iter x <> None /\ (if p then lo_private x <> None else lo_private x = None) /\ (if u then lo_user x <> None else lo_user x = None).
Fixpoint settled (d : edata) : Prop :=
  match d with
  | DComment c => c <> None
  | DClay c => c <> None
  | DCoordinates c => co_name c <> None
  | DRegion _ => False
  | DLoop l => Forall settled_loop l
  | DSymbols l => fold_right (fun x P => settled_symbol x /\ P) True l
  | _ => True
  end
with settled_symbol (x : symbol) : Prop :=
  match x with
  | Symbol _ _ _ a b c e =>
      fold_right (fun x P => settled_generic x /\ P) True a /\ fold_right (fun x P => settled_generic x /\ P) True b /\
      fold_right (fun x P => settled_generic x /\ P) True c /\ fold_right (fun x P => settled_generic x /\ P) True e
  end
with settled_generic (g : generic) : Prop :=
  match g with
  | Generic _ (Some d) => settled d
  | Generic i None => match i with Some (Iface _ (KRegion | KDependence)) => False | _ => True end
  end.
Definition settled_scop (s : scop) : Prop :=
  sc_language s <> None /\ sc_stmts s <> [] /\ Forall settled_generic (sc_params s) /\
  Forall (fun st => Forall settled_generic (st_ext st)) (sc_stmts s) /\ Forall settled_generic (sc_ext s).
End SETTLED.
(** A comparison that always has an answer, and it is the truth. *)
Definition decides (r : res bool) (P : Prop) : Prop := exists b, r = Ok b /\ (b = true <-> P).
