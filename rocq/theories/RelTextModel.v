(** * RelTextModel: printing and reading relations, source/relation.c

    Texts are built with osl_util_safe_strcat, modelled by [++] (C37 shows that
    it appends whatever the sizes).  Fixed-size buffers that are written without
    a bound go through [buf_store]; those written by snprintf are truncated to
    OSL_MAX_STRING - 1 characters by [snp].  The SCoPLib variants are
    in ScoplibModel.v. *)
From Verif Require Import Base IntModel VectorModel RelationModel UtilModel StringsModel.

(** snprintf(buffer, OSL_MAX_STRING, ...) *)
Definition snp (t : str) : str := firstn 2047 t.

Section RELTEXT.
Context {cfg : config}.

(** ** Printing *)

(** Spelling of the types, include/osl/macros.h OSL_STRING_* *)
Definition type_string (t : Z) : str :=
  if t =? UNDEFINED then lit "UNDEFINED"
  else if t =? TYPE_CONTEXT then lit "CONTEXT"
  else if t =? TYPE_DOMAIN then lit "DOMAIN"
  else if t =? TYPE_SCATTERING then lit "SCATTERING"
  else if t =? TYPE_READ then lit "READ"
  else if t =? TYPE_WRITE then lit "WRITE"
  else if t =? TYPE_MAY_WRITE then lit "MAY_WRITE"
  else lit "UNDEFINED".
(** source/relation.c:103-149 osl_relation_sprint_type *)
Definition osl_relation_sprint_type (u : list relation) : str :=
  match u with [] => [] | r :: _ => type_string (rtype r) end.

(** source/relation.c:272-330 osl_relation_expression_element: the text and the new value of
    the [first] flag.  The buffers hold OSL_MAX_STRING bytes. *)
Definition osl_relation_expression_element (val p : Z) (first cst : bool) (name : str)
  : res (str * bool) :=
  zero <- osl_int_zero p val ;;
  neg <- osl_int_neg p val ;;
  one <- osl_int_one p val ;;
  mone <- osl_int_mone p val ;;
  pos <- osl_int_pos p val ;;
  txt <- osl_int_sprint_txt p val ;;
  let star := lit "*" ++ name in
  '(t, first') <-
    (if negb zero && negb cst then
       if first || neg then
         Ok ((if one then name else if mone then lit "-" ++ name else txt ++ star), false)
       else
         Ok ((if one then lit "+" ++ name else lit "+" ++ txt ++ star), first)
     else if cst then
       let s := if (zero && first) || neg then txt else [] in
       let s := if pos then (if negb first then lit "+" ++ txt else txt) else s in
       Ok (s, first)
     else Ok ([], first)) ;;
  t <- buf_store t ;; Ok (t, first').

(** source/relation.c:341-400 osl_relation_strings: one name per column.  Simplification: a
    write at or beyond the slot of the terminating NULL, and a slot never
    written, are undefined at once (the C program reads or frees them later). *)
Definition copy_names (src : strings) (lo hi : Z) (a : list (option str)) : res (list (option str)) :=
  cfor lo hi (fun i a => s <- aget (elems src) (i - lo) ;; aset a i (Some s)) a.
Definition osl_relation_strings (r : relation) (n : names) : res (list str) :=
  let a := repeat None (Z.to_nat (ncols r)) in
  a <- aset a 0 (Some (lit "e/i")) ;;
  let offset := 1 in
  a <- (if osl_relation_is_access r then
          a <- aset a offset (Some (lit "Arr")) ;;
          cfor (offset + 1) (nout r + offset) (fun i a =>
            aset a i (Some (lit "[" ++ print_Z (i - 1) ++ lit "]"))) a
        else if (rtype r =? TYPE_DOMAIN) || (rtype r =? TYPE_CONTEXT) then
          copy_names (n_iters n) offset (nout r + offset) a
        else copy_names (n_scatt n) offset (nout r + offset) a) ;;
  let offset := offset + nout r in
  a <- copy_names (n_iters n) offset (nin r + offset) a ;;
  let offset := offset + nin r in
  a <- copy_names (n_locals n) offset (nloc r + offset) a ;;
  let offset := offset + nloc r in
  a <- copy_names (n_params n) offset (npar r + offset) a ;;
  let offset := offset + npar r in
  a <- aset a offset (Some (lit "1")) ;;
  mapM (fun o => match o with Some s => Ok s | None => UB end) a.

(** source/relation.c:415-449 osl_relation_subexpression; the coefficient is opposed in place
    and opposed back after printing. *)
Definition osl_relation_subexpression (r : relation) (row start stop : Z) (oppose : bool)
  (strings : list str) : res str :=
  '(line, _) <- cfor start (stop + 1) (fun i s =>
    let '(line, first) := s in
    v <- mget (rm r) row i ;;
    v <- (if oppose then osl_int_oppose (rprec r) v else Ok v) ;;
    name <- aget strings i ;;
    '(t, first) <- osl_relation_expression_element v (rprec r) first (i =? ncols r - 1) name ;;
    (if oppose then osl_int_oppose (rprec r) v else Ok v) ;;;
    line <- buf_store (line ++ t) ;;
    Ok (line, first)) ([], true) ;;
  Ok line.
(** source/relation.c:460-464 osl_relation_expression *)
Definition osl_relation_expression (r : relation) (row : Z) (strings : list str) : res str :=
  osl_relation_subexpression r row 1 (ncols r - 1) false strings.

(** source/relation.c:477-512 osl_relation_is_simple_output *)
Definition osl_relation_is_simple_output (r : relation) (row : Z) : res Z :=
  if match rm r with [] => true | _ => false end || (nout r =? 0) then Ok 0
  else if (row <? 0) || (nrows r <? row) then Err
  else
    t <- mget (rm r) row 0 ;;
    z <- osl_int_zero (rprec r) t ;;
    if negb z then Ok 0
    else
      cfor_ret 1 (nout r + 1) (fun i s =>
        let '(first, sign) := s in
        x <- mget (rm r) row i ;;
        z <- osl_int_zero (rprec r) x ;;
        if z then Ok (inl s)
        else if negb first then Ok (inr 0)
        else
          one <- osl_int_one (rprec r) x ;;
          if one then Ok (inl (false, 1))
          else mone <- osl_int_mone (rprec r) x ;;
               if mone then Ok (inl (false, -1)) else Ok (inr 0))
        (true, 0) (fun s => Ok (snd s)).

(** source/relation.c:527-582 osl_relation_sprint_comment; [u] is the rest of the union from the part
    [r] on, which is what osl_relation_get_array_id looks at. *)
Definition osl_relation_sprint_comment (u : list relation) (r : relation) (row : Z)
  (strings : list str) (arrays : StringsModel.strings) : res str :=
  sign <- osl_relation_is_simple_output r row ;;
  if negb (sign =? 0) then
    e <- osl_relation_subexpression r row 1 (nout r) (sign <? 0) strings ;;
    x <- mget (rm r) row 1 ;;
    z <- osl_int_zero (rprec r) x ;;
    if negb (osl_relation_is_access r) || z then
      e2 <- osl_relation_subexpression r row (nout r + 1) (ncols r - 1) (0 <? sign) strings ;;
      Ok (snp (lit "   ## " ++ e) ++ snp (lit " == " ++ e2))
    else
      id <- osl_relation_get_array_id u ;;
      a <- aget (elems arrays) (id - 1) ;;
      Ok (snp (lit "   ## " ++ e) ++ snp (lit " == " ++ a))
  else
    e <- osl_relation_expression r row strings ;;
    x <- mget (rm r) row 0 ;;
    z <- osl_int_zero (rprec r) x ;;
    Ok (snp (lit "   ## " ++ e) ++ (if z then lit " == 0" else lit " >= 0")).

(** One name of source/relation.c:593-656 osl_relation_column_string: centred in OSL_FMT_LENGTH
    columns, abbreviated with a dot. *)
Definition column_field (s : str) : str :=
  let len := zlength s in
  let length := if len <? FMT_LENGTH then len else FMT_LENGTH in
  let right := (FMT_LENGTH - length) / 2 in
  let left := FMT_LENGTH - length - right in
  repeat c_sp (Z.to_nat left)
  ++ (if len <=? length then s else firstn 3 s ++ lit ".")
  ++ repeat c_sp (Z.to_nat right).
Fixpoint column_fields (r : relation) (i : Z) (strings : list str) : str :=
  match strings with
  | [] => []
  | s :: tl =>
      let i1 := 1 + nout r in let i2 := i1 + nin r in
      let i3 := i2 + nloc r in let i4 := i3 + npar r in
      let i' := i + 1 in
      column_field s
      ++ (if (i' =? 1) || (i' =? i1) || (i' =? i2) || (i' =? i3) || (i' =? i4)
          then lit "|" else lit " ")
      ++ column_fields r i' tl
  end.
(** source/relation.c:593-656 osl_relation_column_string: strcat into a buffer of OSL_MAX_STRING bytes. *)
Definition osl_relation_column_string (r : relation) (strings : list str) : res str :=
  buf_store (lit "#" ++ column_fields r 0 strings ++ [c_nl]).

(** source/relation.c:745-757 osl_relation_names *)
Definition osl_relation_names (u : list relation) : res names :=
  a <- osl_relation_get_attributes u (mkattrs UNDEFINED UNDEFINED UNDEFINED UNDEFINED UNDEFINED) ;;
  osl_names_generate (lit "P") (a_par a) (lit "i") (a_iter a) (lit "c") (a_scat a)
    (lit "l") (a_loc a) (lit "A") (a_id a).

(** One line of the matrix: the coefficients, the comment, a newline. *)
Definition print_cells (r : relation) (i : Z) : res str :=
  cfor 0 (ncols r) (fun j s =>
    x <- mget (rm r) i j ;; t <- osl_int_sprint (rprec r) x ;; t <- buf_store t ;;
    Ok (s ++ t ++ [c_sp])) [].
Definition print_rows (u : list relation) (r : relation) (strings : list str)
  (arrays : StringsModel.strings) : res str :=
  cfor 0 (nrows r) (fun i s =>
    cells <- print_cells r i ;;
    c <- osl_relation_sprint_comment u r i strings arrays ;;
    Ok (s ++ cells ++ c ++ [c_nl])) [].

(** "%d %d %d %d %d %d\n" *)
Definition print_dims (r : relation) : str :=
  print_Z (nrows r) ++ [c_sp] ++ print_Z (ncols r) ++ [c_sp] ++ print_Z (nout r) ++ [c_sp]
  ++ print_Z (nin r) ++ [c_sp] ++ print_Z (nloc r) ++ [c_sp] ++ print_Z (npar r) ++ [c_nl].

(** One union part: body of the loop of osl_relation_spprint_polylib. *)
Definition print_part (nb_parts : Z) (u : list relation) (r : relation) (part : Z) (n : names)
  : res str :=
  strings <- osl_relation_strings r n ;;
  col <- (if 0 <? nrows r then c <- osl_relation_column_string r strings ;; Ok (snp c) else Ok []) ;;
  rows <- print_rows u r strings (n_arrays n) ;;
  Ok ((if 1 <? nb_parts then lit "# Union part No." ++ print_Z part ++ [c_nl] else [])
      ++ snp (print_dims r) ++ col ++ rows).
Fixpoint print_parts (nb_parts : Z) (u : list relation) (part : Z) (n : names) : res str :=
  match u with
  | [] => Ok []
  | r :: next =>
      a <- print_part nb_parts u r part n ;;
      b <- print_parts nb_parts next (part + 1) n ;; Ok (a ++ b)
  end.
(** source/relation.c:786-875 osl_relation_spprint_polylib; [None] for [names] is the NULL pointer. *)
Definition osl_relation_spprint_polylib (u : list relation) (on : option names) : res str :=
  match u with
  | [] => Ok (lit "# NULL relation" ++ [c_nl])
  | _ =>
      n <- match on with Some n => Ok n | None => osl_relation_names u end ;;
      let nb_parts := osl_relation_nb_components u in
      body <- print_parts nb_parts u 1 n ;;
      Ok ((if 1 <? nb_parts
           then lit "# Union with " ++ print_Z nb_parts ++ lit " parts" ++ [c_nl]
                ++ print_Z nb_parts ++ [c_nl]
           else []) ++ body)
  end.
(** source/relation.c:1138-1161 osl_relation_spprint *)
Definition osl_relation_spprint (u : list relation) (on : option names) : res str :=
  if 0 <? osl_relation_nb_components u
  then t <- osl_relation_spprint_polylib u on ;;
       Ok (osl_relation_sprint_type u ++ [c_nl] ++ t)
  else Ok [].
(** source/relation.c:1234-1236 osl_relation_sprint; source/relation.c:1245-1247 osl_relation_print writes the same text. *)
Definition osl_relation_sprint (u : list relation) : res str := osl_relation_spprint u None.

(** ** Reading *)

(** The comparisons of osl_relation_read_type. *)
Definition parse_type (s : str) : res Z :=
  if str_eqb s (lit "UNDEFINED") then Ok UNDEFINED
  else if str_eqb s (lit "CONTEXT") then Ok TYPE_CONTEXT
  else if str_eqb s (lit "DOMAIN") then Ok TYPE_DOMAIN
  else if str_eqb s (lit "SCATTERING") then Ok TYPE_SCATTERING
  else if str_eqb s (lit "READ") then Ok TYPE_READ
  else if str_eqb s (lit "WRITE") then Ok TYPE_WRITE
  else if str_eqb s (lit "MAY_WRITE") then Ok TYPE_MAY_WRITE
  else Err.
Definition type_of_strings (o : option strings) : res Z :=
  match o with
  | Some (Some (s :: _)) => parse_type s
  | _ => Err
  end.
(** source/relation.c:1264-1323 osl_relation_read_type, from a file. *)
Definition osl_relation_read_type_f (f : file) : res (Z * file) :=
  '(o, f') <- osl_strings_read f ;; t <- type_of_strings o ;; Ok (t, f').
(** source/relation.c:1264-1323 osl_relation_read_type, from a string. *)
Definition osl_relation_read_type_s (s : str) : res (Z * option str) :=
  '(o, s') <- osl_strings_sread s ;; t <- type_of_strings o ;; Ok (t, s').

(** [sscanf(s, " %d %d ...", ...)] with [n] conversions: the values converted
    before the first failure. *)
Fixpoint scan_ints (n : nat) (s : str) : res (list Z) :=
  match n with
  | O => Ok []
  | S k =>
      match scan_Z s with
      | Some (Some (v, rest)) =>
          if fits 32 v then l <- scan_ints k rest ;; Ok (v :: l) else UB
      | _ => Ok []
      end
  end.

(** The local variables [str] and [n] of the readers, [None] when still
    uninitialised. *)
Record scratch := Scratch { sc_str : option str; sc_n : option nat }.

(** [sscanf(c, "%s%n", str, &n); osl_int_sread(&str, precision, &m[i][j]); c += n].
    At the end of the input sscanf returns EOF, which is not 0: the previous
    content of the two variables is used again. *)
Definition read_cell (p : Z) (c : str) (sc : scratch) (old : Z) : res (Z * str * scratch) :=
  match skip_spaces c with
  | [] =>
      match sc_str sc, sc_n sc with
      | Some t, Some n =>
          '(_, v) <- osl_int_sread t p old ;;
          if Nat.leb n (List.length c) then Ok (v, skipn n c, sc) else UB
      | _, _ => UB
      end
  | c1 =>
      let '(t, rest) := span not_space c1 in
      t <- buf_store t ;;
      '(_, v) <- osl_int_sread t p old ;;
      Ok (v, rest, Scratch (Some t) (Some (List.length c - List.length rest)%nat))
  end.

(** The loop on the columns, from the cursor [c]. *)
Definition read_cells (p : Z) (i cols : Z) (m : list (list Z)) (c : str) (sc : scratch)
  : res (list (list Z) * str * scratch) :=
  cfor 0 cols (fun j s =>
    let '(m, c, sc) := s in
    if match c with
       | ch :: _ => ceqb ch c_hash || ceqb ch c_nl
       | [] => false
       end then Err
    else
      old <- mget m i j ;;
      '(v, c, sc) <- read_cell p c sc old ;;
      m <- mset m i j v ;;
      Ok (m, c, sc)) (m, c, sc).

(** The part allocated for the six attributes [d]. *)
Definition new_part (p type : Z) (d : list Z) : res relation :=
  match d with
  | [nr; nc; o; i; l; q] =>
      r <- osl_relation_pmalloc p nr nc ;;
      Ok (mkrel type (rprec r) (nrows r) (ncols r) o i l q (rm r))
  | _ => UB
  end.

(** *** From a file *)

(** One attribute line; sscanf of a NULL line is undefined. *)
Definition read_dims_f (f : file) : res (list Z * file) :=
  '(o, f') <- osl_util_skip_blank_and_comments f ;;
  match o with
  | None => UB
  | Some l => d <- scan_ints 6 l ;; Ok (d, f')
  end.
(** The attributes of a part that is not the first one: six integers. *)
Definition next_dims_f (f : file) : res (list Z * file) :=
  '(d, f') <- read_dims_f f ;;
  if Nat.eqb (List.length d) 6 then Ok (d, f') else Err.
(** The number of parts, when given, and the attributes of the first part. *)
Definition first_dims_f (f : file) : res (Z * list Z * file) :=
  '(d, f') <- read_dims_f f ;;
  match d with
  | [n] => if n <? 1 then Err else '(d, f') <- next_dims_f f' ;; Ok (n, d, f')
  | _ => if Nat.eqb (List.length d) 6 then Ok (1, d, f') else Err
  end.
(** The constraints of one part. *)
Definition read_rows_f (p : Z) (r : relation) (f : file) (sc : scratch)
  : res (relation * file * scratch) :=
  '(m, f, sc) <- cfor 0 (nrows r) (fun i s =>
    let '(m, f, sc) := s in
    '(o, f) <- osl_util_skip_blank_and_comments f ;;
    match o with
    | None => Err
    | Some c => '(m, _, sc) <- read_cells p i (ncols r) m c sc ;; Ok (m, f, sc)
    end) (rm r, f, sc) ;;
  Ok (with_m r (nrows r) (ncols r) m, f, sc).
Fixpoint read_parts_f (p type : Z) (k : nat) (d : list Z) (f : file) (sc : scratch)
  : res (list relation * file) :=
  r <- new_part p type d ;;
  '(r, f, sc) <- read_rows_f p r f sc ;;
  match k with
  | O => Ok ([r], f)
  | S k' => '(d, f) <- next_dims_f f ;;
            '(u, f) <- read_parts_f p type k' d f sc ;; Ok (r :: u, f)
  end.
(** source/relation.c:1333-1416 osl_relation_pread; the number of parts is at least 1. *)
Definition osl_relation_pread (f : file) (p : Z) : res (list relation * file) :=
  '(type, f) <- osl_relation_read_type_f f ;;
  '(n, d, f) <- first_dims_f f ;;
  read_parts_f p type (Z.to_nat (n - 1)) d f (Scratch None None).

(** *** From a string *)

(** One attribute line, copied into [str]; the cursor stops on the newline. *)
Definition read_dims_s (s : str) (sc : scratch) : res (list Z * str * scratch) :=
  s1 <- osl_util_sskip_blank_and_comments s ;;
  let '(line, rest) := span (fun c => negb (ceqb c c_nl)) s1 in
  line <- buf_store line ;;
  d <- scan_ints 6 line ;;
  Ok (d, rest, Scratch (Some line) (sc_n sc)).
Definition next_dims_s (s : str) (sc : scratch) : res (list Z * str * scratch) :=
  '(d, s, sc) <- read_dims_s s sc ;;
  if Nat.eqb (List.length d) 6 then Ok (d, s, sc) else Err.
Definition first_dims_s (s : str) (sc : scratch) : res (Z * list Z * str * scratch) :=
  '(d, s, sc) <- read_dims_s s sc ;;
  match d with
  | [n] => if n <? 1 then Err else '(d, s, sc) <- next_dims_s s sc ;; Ok (n, d, s, sc)
  | _ => if Nat.eqb (List.length d) 6 then Ok (1, d, s, sc) else Err
  end.
Definition read_rows_s (p : Z) (r : relation) (s : str) (sc : scratch)
  : res (relation * str * scratch) :=
  '(m, s, sc) <- cfor 0 (nrows r) (fun i st =>
    let '(m, s, sc) := st in
    s <- osl_util_sskip_blank_and_comments s ;;
    read_cells p i (ncols r) m s sc) (rm r, s, sc) ;;
  Ok (with_m r (nrows r) (ncols r) m, s, sc).
Fixpoint read_parts_s (p : Z) (k : nat) (d : list Z) (s : str) (sc : scratch)
  : res (list relation * str) :=
  r <- new_part p UNDEFINED d ;;
  '(r, s, sc) <- read_rows_s p r s sc ;;
  match k with
  | O => Ok ([r], s)
  | S k' => '(d, s, sc) <- next_dims_s s sc ;;
            '(u, s) <- read_parts_s p k' d s sc ;; Ok (r :: u, s)
  end.
(** source/relation.c:1447-1536 osl_relation_psread_polylib *)
Definition osl_relation_psread_polylib (s : str) (p : Z) : res (list relation * str) :=
  '(n, d, s, sc) <- first_dims_s s (Scratch None None) ;;
  read_parts_s p (Z.to_nat (n - 1)) d s sc.
(** source/relation.c:1425-1434 osl_relation_psread: only the first part gets the type.  A cursor past
    the terminating NUL is undefined. *)
Definition osl_relation_psread (s : str) (p : Z) : res (list relation * str) :=
  '(type, o) <- osl_relation_read_type_s s ;;
  match o with
  | None => UB
  | Some s =>
      '(u, s) <- osl_relation_psread_polylib s p ;;
      match u with
      | [] => UB
      | r :: next => Ok (with_type r type :: next, s)
      end
  end.

(** source/relation.c:1569-1572 osl_relation_read, source/relation.c:1545-1548 osl_relation_sread, source/relation.c:1557-1560 osl_relation_sread_polylib;
    [env] is the environment variable OSL_PRECISION. *)
Definition osl_relation_read (env : option str) (f : file) : res (list relation * file) :=
  osl_relation_pread f (osl_util_get_precision env).
Definition osl_relation_sread (env : option str) (s : str) : res (list relation * str) :=
  osl_relation_psread s (osl_util_get_precision env).
Definition osl_relation_sread_polylib (env : option str) (s : str) : res (list relation * str) :=
  osl_relation_psread_polylib s (osl_util_get_precision env).

End RELTEXT.
