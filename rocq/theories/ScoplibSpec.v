(** * ScoplibSpec: what a text in the SCoPLib format must contain

    A text is looked at as the sequence of its words, comments left out. *)
From Verif Require Import Base IntModel RelationModel UtilModel StringsModel RelTextModel ExtModel ScopModel Spec RelSpec TextSpec.

(** The words of a text: maximal sequences of characters that are not white space; a comment goes from '#' to the end of its line. *)
Definition flush (w : str) : list str := match w with [] => [] | _ => [w] end.
Fixpoint words_from (comment : bool) (w s : str) : list str :=
  match s with
  | [] => flush w
  | c :: tl =>
      if ceqb c c_nl then flush w ++ words_from false [] tl
      else if comment then words_from true w tl
      else if ceqb c c_hash then flush w ++ words_from true [] tl
      else if is_space c then flush w ++ words_from false [] tl
      else words_from false (w ++ [c]) tl
  end.
Definition words (s : str) : list str := words_from false [] s.
(** Numbers are written in decimal. *)
Definition numbers (l : list Z) : list str := map print_Z l.
Example words_example : words (lit " 1  -20 ## i == 3" ++ [c_nl] ++ lit "# x 4" ++ [c_nl] ++ lit "ab 5") = [lit "1"; lit "-20"; lit "ab"; lit "5"].
Proof. reflexivity. Qed.

(** ** Matrices *)
(** SCoPLib domains have no input dimensions, the other matrices no output dimensions: their columns are left out. *)
Definition without_inputs (r : relation) (row : list Z) : list Z :=
  firstn (Z.to_nat (1 + nout r)) row ++ skipn (Z.to_nat (1 + nout r + nin r)) row.
(** The columns after the output ones; in a statement without loop a column is added after the input dimensions for an iterator that is
    always zero ([fake]). *)
Definition after_outputs (fake : bool) (r : relation) (row : list Z) : list Z :=
  firstn (Z.to_nat (nin r)) (skipn (Z.to_nat (1 + nout r)) row) ++ (if fake then [0] else [])
  ++ skipn (Z.to_nat (1 + nout r + nin r)) row.
Definition first_cell (row : list Z) : Z := hd 0 row.
Definition zeros (n : Z) : list Z := repeat 0 (Z.to_nat n).

(** A domain: its size, its rows.  With [fake] the domain has no row and the row [fake iterator = 0] is written. *)
Definition domain_numbers (fake : bool) (r : relation) : list Z :=
  if fake then [1; ncols r - nin r + 1] ++ [0; 1] ++ zeros (npar r) ++ [0]
  else [nrows r; ncols r - nin r] ++ concat (map (without_inputs r) (rm r)).
(** A context or a scattering.  With [fake] the scattering has one row and becomes (row, fake iterator, 0). *)
Definition scattering_numbers (fake : bool) (r : relation) : list Z :=
  [nrows r + (if fake then 2 else 0); ncols r - nout r + (if fake then 1 else 0)]
  ++ concat (map (fun row => first_cell row :: after_outputs fake r row) (rm r))
  ++ (if fake then [0; 1] ++ zeros (ncols r - 2) ++ zeros (ncols r) else []).
(** The rows of an access: the first one of the relation gives the array number (its constant), the next ones the subscripts; the number is
    written in the first column of the first subscript, 0 in that of the others.  A variable has no subscript: the row has the array number
    and no constant. *)
Definition array_number (r : relation) : Z := last (hd [] (rm r)) 0.
Definition access_rows (fake : bool) (r : relation) : list (list Z) :=
  match rm r with
  | [] => []
  | [row] => [array_number r :: removelast (after_outputs fake r row) ++ [0]]
  | _ :: row :: rows => (array_number r :: after_outputs fake r row) :: map (fun row => 0 :: after_outputs fake r row) rows
  end.

(** Union of domains: their number if there are several, then each domain after its rank. *)
Fixpoint domains_from (k : Z) (fake : bool) (u : list relation) : list Z :=
  match u with [] => [] | r :: tl => k :: domain_numbers fake r ++ domains_from (k + 1) fake tl end.
Definition union_numbers (fake : bool) (u : list relation) : list Z :=
  (if 1 <? zlength u then [zlength u] else []) ++ domains_from 1 fake u.

(** The accesses of one type: the size of the matrix, its rows. *)
Definition of_type (t : Z) (l : list (list relation)) : list relation :=
  flat_map (fun u => match u with r :: _ => if rtype r =? t then [r] else [] | [] => [] end) l.
Definition accesses_numbers (t : Z) (fake : bool) (l : list (list relation)) : list Z :=
  let rows := flat_map (access_rows fake) (of_type t l) in
  let columns := match rev (of_type t l) with r :: _ => ncols r - nout r | [] => 0 end in
  [zlength rows; columns + (if fake then 1 else 0)] ++ concat rows.

(** A sequence of numbers that starts with a size R C and goes on with R rows of C numbers. *)
Definition sized_matrix (l : list Z) : Prop :=
  exists rows columns (m : list (list Z)), l = [rows; columns] ++ concat m /\ zlength m = rows /\ Forall (fun row => zlength row = columns) m.

(** ** Statements and scops *)
Definition strings_of (o : option strings) : list str := match o with Some s => elems s | None => [] end.
(** A statement with no constraint on its domain and one scattering dimension gets an iterator that is always zero. *)
Definition loopless (s : statement) : bool :=
  match st_domain s, st_scattering s with d :: _, c :: _ => (nrows d =? 0) && (nrows c =? 1) | _, _ => false end.
Definition body_of_statement (s : statement) : option body :=
  match osl_generic_lookup (st_ext s) (uri_of KBody) with Some (DBody b) => Some b | _ => None end.
(** Whether there is a body; the iterators ("fakeiter" if there is none), the expression. *)
Definition body_words (o : option body) : list str :=
  match o with
  | None => [lit "0"]
  | Some b => [lit "1"] ++ (match strings_of (bo_iterators b) with [] => [lit "fakeiter"] | l => flat_map words l end)
              ++ flat_map words (strings_of (bo_expression b))
  end.
(** Domain; scattering (always provided); accesses (always provided), read then written; body. *)
Definition statement_words (s : statement) : list str :=
  let fake := loopless s in
  numbers (union_numbers fake (st_domain s))
  ++ numbers [1] ++ numbers (flat_map (scattering_numbers fake) (st_scattering s))
  ++ numbers [1] ++ numbers (accesses_numbers TYPE_READ fake (st_access s)) ++ numbers (accesses_numbers TYPE_WRITE fake (st_access s))
  ++ body_words (body_of_statement s).
Definition parameters_words (l : list generic) : list str :=
  match l with
  | Generic _ (Some (DStrings p)) :: _ => [lit "1"] ++ flat_map words (elems p)
  | _ => [lit "0"]
  end.
Definition arrays_words (l : list generic) : list str :=
  match osl_generic_lookup l (uri_of KArrays) with
  | Some (DArrays a) => [lit "<arrays>"] ++ numbers [zlength a] ++ flat_map (fun x => numbers [fst x] ++ words (snd x)) a ++ [lit "</arrays>"]
  | _ => []
  end.
Definition scop_words (s : scop) : list str :=
  [lit "SCoP"] ++ words (match sc_language s with Some w => w | None => lit "(null)" end)
  ++ numbers (flat_map (scattering_numbers false) (sc_context s))
  ++ parameters_words (sc_params s)
  ++ numbers [zlength (sc_stmts s)] ++ flat_map statement_words (sc_stmts s)
  ++ arrays_words (sc_ext s).

(** ** What can be shown in this format *)
Section SHOWN.
Context {cfg : config}.
(** A well-formed matrix whose dimensions cover its columns. *)
Definition shown_relation (t : Z) (r : relation) : Prop :=
  wf_rel cfg r /\ rtype r = t /\ 0 <= nout r /\ 0 <= nin r /\ 0 <= nloc r /\ 0 <= npar r /\ ncols r = 2 + nout r + nin r + nloc r + npar r.
(** No character that starts a comment or ends a line. *)
Definition plain (w : str) : Prop := no_nl w /\ ~ In c_hash w.
Definition shown_body (o : option body) : Prop :=
  match o with None => True | Some b => Forall plain (strings_of (bo_iterators b)) /\ Forall (fun w => ~ In c_hash w) (strings_of (bo_expression b)) end.
(** The domain is a union of domains, all without constraint in a statement without loop; the scattering is one matrix; the accesses are
    reads or writes of one part, with at least the row of the array, and there is at least one. *)
Definition shown_statement (s : statement) : Prop :=
  st_domain s <> [] /\ Forall (shown_relation TYPE_DOMAIN) (st_domain s) /\
  (loopless s = true -> Forall (fun r => nrows r = 0) (st_domain s)) /\
  (exists r, st_scattering s = [r] /\ shown_relation TYPE_SCATTERING r) /\
  st_access s <> [] /\
  Forall (fun u => exists r, u = [r] /\ (shown_relation TYPE_READ r \/ shown_relation TYPE_WRITE r) /\ 1 <= nrows r) (st_access s) /\
  (forall d, osl_generic_lookup (st_ext s) (uri_of KBody) = Some d -> exists b, d = DBody b) /\
  shown_body (body_of_statement s).
Definition shown_scop (s : scop) : Prop :=
  (exists r, sc_context s = [r] /\ shown_relation TYPE_CONTEXT r) /\
  (sc_params s = [] \/ exists k p, sc_params s = [Generic (Some (Iface (Some (lit "strings")) k)) (Some (DStrings p))] /\ Forall plain (elems p)) /\
  Forall shown_statement (sc_stmts s) /\
  (forall d, osl_generic_lookup (sc_ext s) (uri_of KArrays) = Some d -> exists a, d = DArrays a /\ Forall (fun x => no_nl (snd x)) a).
End SHOWN.
