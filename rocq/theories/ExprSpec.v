(** * What the text of a linear expression means

    A small calculator for texts such as ["-2*i+N-1"], written without looking at the printer: a text is cut at its
    [+] and [-] signs, each piece is a decimal number, a name, or a decimal number, a star and a name.  [None] is
    "not an expression".  Nothing of the model but the type of texts is used. *)
From Verif Require Import Base RelSpec.

(** The value of a non-empty string of decimal digits. *)
Fixpoint decimal_from (acc : Z) (t : str) : option Z :=
  match t with
  | [] => Some acc
  | c :: t' =>
      let d := Z.of_nat (nat_of_ascii c) - 48 in
      if (0 <=? d) && (d <=? 9) then decimal_from (10 * acc + d) t' else None
  end.
Definition decimal (t : str) : option Z := match t with [] => None | _ => decimal_from 0 t end.

(** The text before and after the first star. *)
Fixpoint at_star (t : str) : option (str * str) :=
  match t with
  | [] => None
  | c :: t' => if Ascii.eqb c "*" then Some ([], t')
               else match at_star t' with Some (a, b) => Some (c :: a, b) | None => None end
  end.

(** A term: [12], [N] or [12*N]; [env] gives the values of the names. *)
Definition term_value (env : str -> option Z) (t : str) : option Z :=
  match at_star t with
  | Some (k, n) => match decimal k, env n with Some k, Some v => Some (k * v) | _, _ => None end
  | None => match decimal t with Some k => Some k | None => env t end
  end.

(** [acc + sign * (term being read)], then the rest of the text. *)
Fixpoint sum_value (env : str -> option Z) (acc sign : Z) (term t : str) : option Z :=
  let here := match term with
              | [] => None
              | _ => match term_value env term with Some v => Some (acc + sign * v) | None => None end
              end in
  match t with
  | [] => here
  | c :: t' =>
      if Ascii.eqb c "+" then match here with Some a => sum_value env a 1 [] t' | None => None end
      else if Ascii.eqb c "-" then match here with Some a => sum_value env a (-1) [] t' | None => None end
      else sum_value env acc sign (term ++ [c]) t'
  end.

(** The value of an expression: terms separated by signs, the first one possibly preceded by a minus. *)
Definition expression_value (env : str -> option Z) (t : str) : option Z :=
  match t with
  | c :: t' => if Ascii.eqb c "-" then sum_value env 0 (-1) [] t' else sum_value env 0 1 [] t
  | [] => None
  end.

(** The text before the first blank, and after it. *)
Fixpoint at_blank (t : str) : option (str * str) :=
  match t with
  | [] => None
  | c :: t' => if Ascii.eqb c " " then Some ([], t')
               else match at_blank t' with Some (a, b) => Some (c :: a, b) | None => None end
  end.

(** What a comment ["   ## e1 == e2"] or ["   ## e1 >= e2"] claims. *)
Definition comment_claim (env : str -> option Z) (c : str) : option bool :=
  match c with
  | c1 :: c2 :: c3 :: c4 :: c5 :: c6 :: t =>
      if str_eqb [c1; c2; c3; c4; c5; c6] (lit "   ## ") then
        match at_blank t with
        | Some (lhs, o1 :: o2 :: o3 :: rhs) =>
            match expression_value env lhs, expression_value env rhs with
            | Some a, Some b =>
                if str_eqb [o1; o2; o3] (lit "== ") then Some (a =? b)
                else if str_eqb [o1; o2; o3] (lit ">= ") then Some (a >=? b)
                else None
            | _, _ => None
            end
        | _ => None
        end
      else None
  | _ => None
  end.

(** A name that can be told from the rest of an expression: not empty, not beginning with a digit, without sign,
    star or blank. *)
Definition digit_head (n : str) : bool :=
  match n with c :: _ => let d := Z.of_nat (nat_of_ascii c) - 48 in (0 <=? d) && (d <=? 9) | [] => false end.
Definition name_ok (n : str) : Prop :=
  n <> [] /\ digit_head n = false /\
  Forall (fun c => c <> "+"%char /\ c <> "-"%char /\ c <> "*"%char /\ c <> " "%char) n.

(** [x1 ... xn] are the values of the columns 1 ... n, [names] the names of all columns (the first is the tag, the
    last the constant). *)
Definition names_values (env : str -> option Z) (names : list str) (x : list Z) : Prop :=
  length names = S (S (length x)) /\
  forall j n v, nth_error names (S j) = Some n -> nth_error x j = Some v -> name_ok n /\ env n = Some v.
(** The names of the arrays 1, 2, ... *)
Definition arrays_values (env : str -> option Z) (names : list str) : Prop :=
  forall k n, nth_error names k = Some n -> name_ok n /\ env n = Some (Z.of_nat k + 1).

(** [a1*b1 + a2*b2 + ...] *)
Fixpoint dot (a b : list Z) : Z :=
  match a, b with x :: a', y :: b' => x * y + dot a' b' | _, _ => 0 end.
(** The elements number [a] to [b], both included. *)
Definition slice {A} (a b : Z) (l : list A) : list A := firstn (Z.to_nat (b + 1 - a)) (skipn (Z.to_nat a) l).

(** The outputs of an equality are one 1 (or one -1) and zeros. *)
Definition simple_output (outs : Z) (row : list Z) (s : Z) : Prop :=
  nth 0 row 0 = 0 /\ (s = 1 \/ s = -1) /\
  exists a b, slice 1 outs row = repeat 0 a ++ s :: repeat 0 b.

(** ** Relations that can be printed *)
From Verif Require Import VectorModel RelationModel StringsModel Spec.

(** Dimension counts as the integrity check wants them. *)
Definition coherent_dims (r : relation) : Prop :=
  0 <= nout r /\ 0 <= nin r /\ 0 <= nloc r /\ 0 <= npar r /\
  ncols r = nout r + nin r + nloc r + npar r + 2 /\
  (rtype r = TYPE_CONTEXT -> nout r = 0) /\
  (rtype r = TYPE_DOMAIN \/ rtype r = TYPE_CONTEXT -> nin r = 0) /\
  (access_type (rtype r) -> 1 <= nout r).

(** Coefficients of at most [k] digits, that can be opposed. *)
Definition short_coefficients (cfg : config) (k : Z) (r : relation) : Prop :=
  Forall (Forall (fun v => - 10 ^ k < v < 10 ^ k /\ representable cfg (rprec r) (- v))) (rm r).

(** The names of the columns of a relation. *)
Fixpoint brackets (n : nat) (i : Z) : list str :=
  match n with O => [] | S n' => (lit "[" ++ IntModel.print_Z i ++ lit "]") :: brackets n' (i + 1) end.
Definition output_names (r : relation) (n : names) : list str :=
  if (rtype r =? TYPE_ACCESS) || (rtype r =? TYPE_READ) || (rtype r =? TYPE_WRITE) || (rtype r =? TYPE_MAY_WRITE)
  then lit "Arr" :: brackets (Z.to_nat (nout r - 1)) 1
  else if (rtype r =? TYPE_DOMAIN) || (rtype r =? TYPE_CONTEXT) then firstn (Z.to_nat (nout r)) (elems (n_iters n))
  else firstn (Z.to_nat (nout r)) (elems (n_scatt n)).
Definition column_names (r : relation) (n : names) : list str :=
  lit "e/i" :: output_names r n ++ firstn (Z.to_nat (nin r)) (elems (n_iters n))
  ++ firstn (Z.to_nat (nloc r)) (elems (n_locals n)) ++ firstn (Z.to_nat (npar r)) (elems (n_params n)) ++ [lit "1"].

(** There are names for all columns. *)
Definition enough_names (r : relation) (n : names) : Prop :=
  (rtype r = TYPE_DOMAIN \/ rtype r = TYPE_CONTEXT -> nout r <= zlength (elems (n_iters n))) /\
  (~ access_type (rtype r) -> rtype r <> TYPE_DOMAIN -> rtype r <> TYPE_CONTEXT ->
     nout r <= zlength (elems (n_scatt n))) /\
  nin r <= zlength (elems (n_iters n)) /\ nloc r <= zlength (elems (n_locals n)) /\
  npar r <= zlength (elems (n_params n)).

(** All names have at most [m] characters. *)
Definition short_names (m : Z) (n : names) : Prop :=
  Forall (fun s => zlength s <= m) (elems (n_params n) ++ elems (n_iters n) ++ elems (n_scatt n)
    ++ elems (n_locals n) ++ elems (n_arrays n)).

(** The accesses of the union are to one array (see [fixes_array]), whose identifier is at most [last]. *)
Definition arrays_known (u : list relation) (last : Z) : Prop :=
  Forall (fun r => access_type (rtype r)) u ->
  exists n, n <= last /\ Forall (fun r => fixes_array r n) u /\
    Forall (fun r => Forall (Forall (fun v => - 2 ^ 31 < v <= 2 ^ 31 - 1)) (rows r)) u.

(** ** The header line of a printed matrix *)
(** A name in four characters: cut after three and ended by a dot if it is longer. *)
Definition short_name (s : str) : str := if Nat.leb (length s) 4 then s else firstn 3 s ++ lit ".".
(** The same, centred in four characters (one more blank on the left when the blanks are odd in number). *)
Definition centred (s : str) : str :=
  let blanks := (4 - length (short_name s))%nat in
  repeat " "%char (blanks - Nat.div blanks 2) ++ short_name s ++ repeat " "%char (Nat.div blanks 2).
(** A bar ends the tag, the outputs, the inputs, the local dimensions and the parameters. *)
Definition ends_group (r : relation) (j : Z) : Prop :=
  j = 0 \/ j = nout r \/ j = nout r + nin r \/ j = nout r + nin r + nloc r \/ j = nout r + nin r + nloc r + npar r.
