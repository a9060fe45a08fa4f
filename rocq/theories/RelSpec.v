(** * What vectors and relations mean

    Specification vocabulary for the relation properties: only the record
    types come from the model. *)
From Verif Require Import Base VectorModel RelationModel Spec.

(** ** Constraint rows *)

(** The constraints of a part, one list of coefficients per row (when there is
    no column the library keeps no matrix: the rows are empty lists). *)
Definition rows (r : relation) : list (list Z) :=
  if ncols r =? 0 then repeat [] (Z.to_nat (nrows r)) else rm r.

(** The part [r] with its constraints replaced by [rs], of width [c]. *)
Definition with_rows (r : relation) (c : Z) (rs : list (list Z)) : relation :=
  mkrel (rtype r) (rprec r) (zlength rs) c (nout r) (nin r) (nloc r) (npar r)
    (if c =? 0 then [] else rs).

(** Well-formed part: the precision is supported, the matrix has exactly
    nrows x ncols entries (no matrix if one of them is 0), all representable. *)
Definition wf_rel (cfg : config) (r : relation) : Prop :=
  supported cfg (rprec r) /\ 0 <= nrows r /\ 0 <= ncols r /\
  (nrows r = 0 \/ ncols r = 0 -> rm r = []) /\
  (0 < nrows r -> 0 < ncols r ->
     zlength (rm r) = nrows r /\ Forall (fun row => zlength row = ncols r) (rm r)) /\
  Forall (Forall (representable cfg (rprec r))) (rm r).

(** Well-formed union. *)
Definition wf_union (cfg : config) (u : list relation) : Prop := Forall (wf_rel cfg) u.

(** Well-formed vector. *)
Definition wf_vec (cfg : config) (v : vector) : Prop :=
  supported cfg (vprec v) /\ vsize v = zlength (vv v) /\
  Forall (representable cfg (vprec v)) (vv v).

(** ** Denotation *)

(** [a1*x1 + ... + an*xn + c*1] for coefficients [a1 ... an c]. *)
Fixpoint affine (coeffs x : list Z) : Z :=
  match coeffs, x with
  | [c], [] => c
  | a :: coeffs', v :: x' => a * v + affine coeffs' x'
  | _, _ => 0
  end.

(** A row is a tag (0: equality, otherwise inequality) followed by the
    coefficients and the constant. *)
Definition satisfies (x row : list Z) : Prop :=
  match row with
  | [] => True
  | tag :: coeffs => if tag =? 0 then affine coeffs x = 0 else affine coeffs x >= 0
  end.

(** The integer points of a part: one coordinate per column except the tag and
    the constant. *)
Definition in_part (r : relation) (x : list Z) : Prop :=
  zlength x = ncols r - 2 /\ Forall (satisfies x) (rows r).

(** The points of a union. *)
Definition in_union (u : list relation) (x : list Z) : Prop :=
  Exists (fun r => in_part r x) u.

(** The relation between input and output vectors (and parameters): the local
    dimensions are existentially quantified. *)
Definition relates (r : relation) (out inp par : list Z) : Prop :=
  zlength out = nout r /\ zlength inp = nin r /\ zlength par = npar r /\
  exists loc, zlength loc = nloc r /\ in_part r (out ++ inp ++ loc ++ par).

Definition relates_union (u : list relation) (out inp par : list Z) : Prop :=
  Exists (fun r => relates r out inp par) u.

(** ** List editing *)
Definition insert_at {A} (n : Z) (new l : list A) : list A :=
  firstn (Z.to_nat n) l ++ new ++ skipn (Z.to_nat n) l.
Definition remove_at {A} (n : Z) (l : list A) : list A :=
  firstn (Z.to_nat n) l ++ skipn (Z.to_nat n + 1) l.
Definition replace_at {A} (n : Z) (new l : list A) : list A :=
  firstn (Z.to_nat n) l ++ new ++ skipn (Z.to_nat n + length new) l.

(** Componentwise combination and [i]-th component. *)
Definition zip_with (f : Z -> Z -> Z) (a b : list Z) : list Z :=
  map (fun ab => f (fst ab) (snd ab)) (combine a b).
Definition component (l : list Z) (i : Z) : Z := nth (Z.to_nat i) l 0.

(** ** Array identifiers *)
(** The constraints of the part fix its first output dimension to [n > 0]: one
    row is the equality [a * out_0 + c = 0] with [a * n + c = 0], and no other
    row mentions the first output dimension. *)
Definition fixes_array (r : relation) (n : Z) : Prop :=
  0 < n /\ exists pre post a c, a <> 0 /\ a * n + c = 0 /\
    rows r = pre ++ (0 :: a :: repeat 0 (Z.to_nat (ncols r - 3)) ++ [c]) :: post /\
    Forall (fun row => nth 1 row 0 = 0) (pre ++ post).

(** Is this type code one of the access types? *)
Definition access_type (t : Z) : Prop :=
  t = TYPE_ACCESS \/ t = TYPE_READ \/ t = TYPE_WRITE \/ t = TYPE_MAY_WRITE.

(** ** Coherence of a relation union (what the integrity check accepts) *)
Definition meets (expected actual : Z) : Prop := expected = UNDEFINED \/ expected = actual.

Definition tags_ok (r : relation) : Prop :=
  Forall (fun row => row = [] \/ nth 0 row 0 = 0 \/ nth 0 row 0 = 1) (rows r).

Definition locals (r : relation) : Z := if nloc r =? UNDEFINED then 0 else nloc r.

Definition coherent (u : list relation) (type outs ins pars : Z) : Prop :=
  forall first rest, u = first :: rest ->
    (if type =? TYPE_ACCESS then access_type (rtype first) else rtype first = type) /\
    nout first <> UNDEFINED /\ nin first <> UNDEFINED /\ nloc first <> UNDEFINED /\ npar first <> UNDEFINED /\
    (rtype first = TYPE_CONTEXT -> nout first = 0) /\
    (rtype first = TYPE_DOMAIN \/ rtype first = TYPE_CONTEXT -> nin first = 0) /\
    meets outs (nout first) /\ meets ins (nin first) /\ meets pars (npar first) /\
    Forall (fun part => nout part = nout first /\ nin part = nin first /\ npar part = npar first /\
              ncols part = nout part + nin part + locals part + npar part + 2 /\ tags_ok part) u /\
    (forall pre part post, u = pre ++ part :: post -> access_type (rtype part) ->
       exists n, Forall (fun r => fixes_array r n) (part :: post)).

(** ** Attributes *)
Inductive attribute := Parameters | Iterators | Scattdims | Localdims | ArrayId.

(** The value of each attribute for one part; [id] is the array identifier of
    an access relation. *)
Definition attribute_of (w : attribute) (r : relation) (id : Z) : Z :=
  match w with
  | Parameters => npar r
  | Localdims => nloc r
  | Iterators => if rtype r =? TYPE_CONTEXT then 0 else if rtype r =? TYPE_DOMAIN then nout r else nin r
  | Scattdims =>
      if (rtype r =? TYPE_CONTEXT) || (rtype r =? TYPE_DOMAIN) || (rtype r =? TYPE_ACCESS) ||
         (rtype r =? TYPE_READ) || (rtype r =? TYPE_WRITE) || (rtype r =? TYPE_MAY_WRITE) then 0 else nout r
  | ArrayId =>
      if (rtype r =? TYPE_ACCESS) || (rtype r =? TYPE_READ) || (rtype r =? TYPE_WRITE) || (rtype r =? TYPE_MAY_WRITE)
      then id else 0
  end.

Definition attribute_in (w : attribute) (a : attrs) : Z :=
  match w with
  | Parameters => a_par a | Iterators => a_iter a | Scattdims => a_scat a | Localdims => a_loc a | ArrayId => a_id a
  end.
