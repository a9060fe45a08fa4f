(** * ScoplibModel: printing in the SCoPLib format

    Texts as in RelTextModel.v and ScopModel.v: appended strings; the fixed-size buffers that are written without a bound go through
    [buf_store].  A flag ([print_nth_part], [add_fakeiter]) is a [bool]. *)
From Verif Require Import Base IntModel VectorModel RelationModel UtilModel StringsModel RelTextModel ExtModel ScopModel CloneModel.

Section SCOPLIB.
Context {cfg : config}.

(** The columns shown by source/relation.c:667-736 osl_relation_column_string_scoplib; OSL_FMT_LENGTH is 4, so that the leading spaces are none and a name is centred as in
    source/relation.c:593-656 osl_relation_column_string. *)
Fixpoint column_fields_scoplib (r : relation) (i : Z) (strings : list str) : str :=
  match strings with
  | [] => []
  | s :: tl =>
      let i1 := 1 in let i2 := i1 + nout r in
      let i3 := i2 + nin r in let i4 := i3 + nloc r in let i5 := i4 + npar r in
      (if (i =? 0) || (negb (rtype r =? TYPE_DOMAIN) && (i2 <=? i)) || ((rtype r =? TYPE_DOMAIN) && (i <=? i1)) || (i4 <=? i)
       then column_field s
            ++ (if (i =? i1 - 1) || (i =? i2 - 1) || (i =? i3 - 1) || (i =? i4 - 1) || (i =? i5 - 1) then lit "|" else lit " ")
       else [])
      ++ column_fields_scoplib r (i + 1) tl
  end.
Definition osl_relation_column_string_scoplib (r : relation) (strings : list str) : res str :=
  buf_store (lit "#" ++ column_fields_scoplib r 0 strings ++ [c_nl]).

Definition zero_cell : str := lit "   0 ".
Definition one_cell : str := lit "   1 ".
(** osl_int_sprint of a coefficient *)
Definition scoplib_number (p v : Z) : res str := t <- osl_int_sprint p v ;; buf_store t.
(** The cells from [lo] to [hi - 1] of a row, each followed by a space; the last cell of the only row of an access is replaced by [zero]. *)
Definition scoplib_cells (access : bool) (r : relation) (i lo hi : Z) (zero : str) : res str :=
  cfor lo hi (fun j s =>
    if access && (nrows r =? 1) && (j =? ncols r - 1) then Ok (s ++ zero)
    else x <- mget (rm r) i j ;; t <- scoplib_number (rprec r) x ;; Ok (s ++ t ++ [c_sp])) [].
(** One line of the matrix without its comment. *)
Definition scoplib_row (access fake : bool) (start : Z) (r : relation) (i : Z) : res str :=
  let i2 := 1 + nout r in
  let i3 := i2 + nin r in
  first <- (if negb access then x <- mget (rm r) i 0 ;; scoplib_number (rprec r) x
            else if i =? start then x <- mget (rm r) 0 (ncols r - 1) ;; scoplib_number (rprec r) x
            else Ok zero_cell) ;;
  rest <- (if rtype r =? TYPE_DOMAIN
           then a <- scoplib_cells false r i 1 i2 [] ;;
                b <- scoplib_cells false r i i3 (ncols r) [] ;; Ok (a ++ b)
           else a <- scoplib_cells access r i i2 i3 zero_cell ;;
                b <- scoplib_cells access r i (Z.max i2 i3) (ncols r) (lit "  0 ") ;;
                Ok (a ++ (if fake then zero_cell else []) ++ b)) ;;
  Ok (first ++ [c_sp] ++ rest).
(** The two lines added for the fake iterator. *)
Fixpoint zero_cells (n : nat) : str := match n with O => [] | S k => zero_cell ++ zero_cells k end.
Definition fake_line (r : relation) (first : bool) : res str :=
  cfor 0 (ncols r) (fun j s => Ok (s ++ if first && (j =? 1) then one_cell else zero_cell)) [].
(** The loop on the rows.  The loop that adds the two lines uses the index of the outer loop: it leaves 2 in it.  [fuel] bounds the number of
    iterations. *)
Fixpoint scoplib_rows (fuel : nat) (access fake : bool) (start : Z) (u : list relation) (r : relation) (i : Z) (strings : list str)
    (arrays : StringsModel.strings) : res str :=
  if i <? nrows r then
    match fuel with
    | O => OutOfFuel
    | S k =>
        row <- scoplib_row access fake start r i ;;
        c <- osl_relation_sprint_comment u r i strings arrays ;;
        '(extra, i) <- (if fake && (rtype r =? TYPE_SCATTERING)
                        then a <- fake_line r true ;; b <- fake_line r false ;; Ok (a ++ [c_nl] ++ b ++ [c_nl], 2)
                        else Ok ([], i)) ;;
        rest <- scoplib_rows k access fake start u r (i + 1) strings arrays ;;
        Ok (row ++ c ++ [c_nl] ++ extra ++ rest)
    end
  else Ok [].
(** "%d %d\n" *)
Definition size_line (a b : Z) : str := print_Z a ++ [c_sp] ++ print_Z b ++ [c_nl].
(** The sizes announced for a matrix that is not an access, with the line of the fake iterator of a domain. *)
Definition scoplib_header (fake : bool) (r : relation) : str :=
  if rtype r =? TYPE_DOMAIN then
    if fake then size_line (nrows r + 1) (ncols r - nin r + 1) ++ zero_cell ++ one_cell ++ zero_cells (Z.to_nat (npar r))
                 ++ ln (lit "    0  ## fakeiter == 0")
    else size_line (nrows r) (ncols r - nin r)
  else if fake then size_line (nrows r + 2) (ncols r - nout r + 1)
  else size_line (nrows r) (ncols r - nout r).
(** One part of the union; [u] is the rest of the union from [r] on. *)
Definition scoplib_part (nb_parts : Z) (access nth fake : bool) (u : list relation) (r : relation) (part : Z) (n : names) : res str :=
  strings <- osl_relation_strings r n ;;
  '(head, start) <-
    (if negb access
     then c <- (if 0 <? nrows r then c <- osl_relation_column_string_scoplib r strings ;; Ok (snp c) else Ok []) ;;
          Ok (scoplib_header fake r ++ c, 0)
     else Ok ([], if nrows r =? 1 then 0 else 1)) ;;
  rows <- scoplib_rows (S (Z.to_nat (nrows r))) access fake start u r start strings (n_arrays n) ;;
  Ok ((if 1 <? nb_parts then lit "# Union part No." ++ print_Z part ++ [c_nl] else [])
      ++ (if nth then print_Z part ++ [c_nl] else []) ++ head ++ rows).
Fixpoint scoplib_parts (nb_parts : Z) (access nth fake : bool) (u : list relation) (part : Z) (n : names) : res str :=
  match u with
  | [] => Ok []
  | r :: next =>
      a <- scoplib_part nb_parts access nth fake u r part n ;;
      b <- scoplib_parts nb_parts access nth fake next (part + 1) n ;; Ok (a ++ b)
  end.
(** source/relation.c:888-1128 osl_relation_spprint_polylib_scoplib *)
Definition osl_relation_spprint_polylib_scoplib (u : list relation) (on : option names) (nth fake : bool) : res str :=
  match u with
  | [] => Ok (lit "# NULL relation" ++ [c_nl])
  | r :: _ =>
      n <- match on with Some n => Ok n | None => osl_relation_names u end ;;
      let nb_parts := osl_relation_nb_components u in
      let access := (rtype r =? TYPE_READ) || (rtype r =? TYPE_WRITE) in
      body <- scoplib_parts nb_parts access nth fake u 1 n ;;
      Ok ((if 1 <? nb_parts
           then lit "# Union with " ++ print_Z nb_parts ++ lit " parts" ++ [c_nl] ++ print_Z nb_parts ++ [c_nl]
           else []) ++ body)
  end.
(** source/relation.c:1173-1190 osl_relation_spprint_scoplib; source/relation.c:1217-1225 osl_relation_pprint_scoplib writes the same text. *)
Definition osl_relation_spprint_scoplib (u : list relation) (on : option names) (nth fake : bool) : res str :=
  match u with [] => Ok [] | _ => osl_relation_spprint_polylib_scoplib u on nth fake end.

(** ** Accesses *)
(** The number of rows, and of columns (those of the last one), of the accesses of a type. *)
Definition has_type (type : Z) (u : list relation) : bool := match u with [] => false | r :: _ => rtype r =? type end.
Fixpoint access_sizes (type : Z) (l : list (list relation)) (rows columns : Z) : Z * Z :=
  match l with
  | [] => (rows, columns)
  | u :: tl =>
      match u with
      | r :: _ => if rtype r =? type
                  then access_sizes type tl (if nrows r =? 1 then rows + 1 else rows + (nrows r - 1)) (ncols r - nout r)
                  else access_sizes type tl rows columns
      | [] => access_sizes type tl rows columns
      end
  end.
Definition access_texts (type : Z) (l : list (list relation)) (on : option names) (fake : bool) : res str :=
  print_all (fun u => if has_type type u then osl_relation_spprint_scoplib u on false fake else Ok []) l.
(** source/relation_list.c:189-276 osl_relation_list_pprint_access_array_scoplib *)
Definition osl_relation_list_pprint_access_array_scoplib (l : list (list relation)) (on : option names) (fake : bool) : res str :=
  if 0 <? osl_relation_list_count l then
    let inc := if fake then 1 else 0 in
    let '(rr, cr) := access_sizes TYPE_READ l 0 0 in
    let '(rw, cw) := access_sizes TYPE_WRITE l 0 0 in
    let '(rm, cm) := access_sizes TYPE_MAY_WRITE l 0 0 in
    a <- access_texts TYPE_READ l on fake ;;
    b <- access_texts TYPE_WRITE l on fake ;;
    m <- (if 0 <? rm then t <- access_texts TYPE_MAY_WRITE l on fake ;;
                          Ok (ln (lit "# May Write access informations") ++ size_line rm (cm + inc) ++ t)
          else Ok []) ;;
    Ok (ln (lit "# Read access informations") ++ size_line rr (cr + inc) ++ a
        ++ ln (lit "# Write access informations") ++ size_line rw (cw + inc) ++ b ++ m)
  else Ok (ln (lit "# NULL relation list")).

(** ** Bodies, statements, scops *)
(** source/body.c:160-178 osl_body_print_scoplib *)
Definition osl_body_print_scoplib (b : option body) : res str :=
  match b with
  | None => Ok (ln (lit "# NULL statement body"))
  | Some b =>
      it <- (if 0 <? osl_strings_size (bo_iterators b)
             then t <- osl_strings_sprint (bo_iterators b) ;; Ok (ln (lit "# List of original iterators") ++ t)
             else Ok (ln (lit "fakeiter"))) ;;
      e <- osl_strings_sprint (bo_expression b) ;;
      Ok (it ++ ln (lit "# Statement body expression") ++ e)
  end.
(** One iteration of source/statement.c:279-357 osl_statement_pprint_scoplib: the number of rows of the domain and of the scattering is read without a NULL test
    (the scattering only if the domain has no row). *)
Definition statement_pprint_scoplib_one (number : Z) (s : statement) (n : names) : res str :=
  b <- body_of (st_ext s) ;;
  let n := with_iterators n b in
  fake <- match st_domain s with
          | [] => UB
          | d :: _ => if nrows d =? 0 then match st_scattering s with [] => UB | r :: _ => Ok (nrows r =? 1) end else Ok false
          end ;;
  d <- osl_relation_spprint_scoplib (st_domain s) (Some n) true fake ;;
  c <- osl_relation_spprint_scoplib (st_scattering s) (Some n) false fake ;;
  a <- osl_relation_list_pprint_access_array_scoplib (st_access s) (Some n) fake ;;
  e <- match b with
       | Some _ => t <- osl_body_print_scoplib b ;; Ok (ln (lit "# Statement body is provided") ++ ln (lit "1") ++ t)
       | None => Ok (ln (lit "# Statement body is not provided") ++ ln (lit "0"))
       end ;;
  Ok (rule_title (lit "Statement " ++ print_Z number)
      ++ section_title number (lit ".1 Domain") ++ ln (lit "# Iteration domain") ++ d ++ [c_nl]
      ++ section_title number (lit ".2 Scattering") ++ ln (lit "# Scattering function is provided") ++ ln (lit "1") ++ c ++ [c_nl]
      ++ section_title number (lit ".3 Access") ++ ln (lit "# Access informations are provided") ++ ln (lit "1") ++ a ++ [c_nl]
      ++ section_title number (lit ".4 Body") ++ e ++ [c_nl]).
Fixpoint statements_pprint_scoplib (number : Z) (l : list statement) (n : names) : res str :=
  match l with
  | [] => Ok []
  | s :: tl => a <- statement_pprint_scoplib_one number s n ;; b <- statements_pprint_scoplib (number + 1) tl n ;; Ok (a ++ b)
  end.
(** source/statement.c:279-357 osl_statement_pprint_scoplib *)
Definition osl_statement_pprint_scoplib (l : list statement) (on : option names) : res str :=
  n <- match on with None => osl_statement_names l | Some n => Ok n end ;; statements_pprint_scoplib 1 l n.
(** source/generic.c:206-217 osl_generic_print_options_scoplib *)
Definition osl_generic_print_options_scoplib (l : list generic) : res str :=
  o <- match osl_generic_lookup l (uri_of KArrays) with
       | None => osl_arrays_sprint None
       | Some (DArrays a) => osl_arrays_sprint (Some a)
       | Some _ => UB
       end ;;
  match o with
  | None => Ok []
  | Some t => Ok (ln (lit "<arrays>") ++ t ++ ln (lit "</arrays>"))
  end.
(** One iteration of source/scop.c:300-392 osl_scop_print_scoplib; the data of the parameters is printed as strings whatever its interface is. *)
Definition scop_print_scoplib_one (s : scop) (n : names) : res str :=
  n <- with_parameters n (sc_params s) ;;
  n <- with_arrays n (sc_ext s) ;;
  c <- osl_relation_spprint_scoplib (sc_context s) (Some n) false false ;;
  p <- match sc_params s with
       | [] => Ok []
       | g :: _ => t <- match g_data g with
                        | None => osl_strings_sprint None
                        | Some (DStrings x) => osl_strings_sprint (Some x)
                        | Some _ => UB
                        end ;; Ok (ln (lit "# Parameter names") ++ t)
       end ;;
  t <- osl_statement_pprint_scoplib (sc_stmts s) (Some n) ;;
  e <- match sc_ext s with
       | [] => Ok []
       | l => x <- osl_generic_print_options_scoplib l ;; Ok (rule_title (lit "Options") ++ x)
       end ;;
  Ok (c_nl :: ln (lit "SCoP") ++ [c_nl]
      ++ rule_title (lit "Global") ++ ln (lit "# Language") ++ ln (pr (sc_language s)) ++ [c_nl]
      ++ ln (lit "# Context") ++ c ++ [c_nl]
      ++ osl_util_print_provided (osl_generic_has_URI (sc_params s) (uri_of KStrings)) (lit "Parameters are") ++ p
      ++ c_nl :: ln (lit "# Number of statements") ++ lnZ (osl_statement_number (sc_stmts s)) ++ [c_nl]
      ++ t ++ e).
(** source/scop.c:300-392 osl_scop_print_scoplib: a scop that is not compatible stops the program. *)
Definition osl_scop_print_scoplib (l : list scop) : res str :=
  match l with
  | [] => Ok (ln (lit "# NULL scop"))
  | _ =>
      b <- osl_scop_check_compatible_scoplib l ;;
      if negb b then Err
      else
        n <- osl_scop_names l ;;
        t <- print_all (fun s => scop_print_scoplib_one s n) l ;;
        Ok (lit "# [File generated by the OpenScop Library " ++ release ++ ln (lit "]") ++ ln (lit "# [SCoPLib format]") ++ t)
  end.

End SCOPLIB.
