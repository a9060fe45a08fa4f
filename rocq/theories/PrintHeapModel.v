(** * PrintHeapModel: what printing a relation does to the memory (source/relation.c, source/names.c, source/util.c)

    The texts are those of RelTextModel.v; here every buffer, array of names and names object is allocated, grown and freed as
    the C code does, the coefficients are opposed in place and opposed back, and the names are read through the pointers of the
    names object.

    Simplifications: the functions that only read (osl_relation_is_simple_output, osl_relation_get_array_id,
    osl_relation_get_attributes, and the fields used by osl_relation_column_string) read the part, or the union, as a whole
    ([fetch_part], [fetch_union]) and then compute as in the value-level model; a buffer just allocated holds the empty string; the capacity of a
    buffer is not recorded (C37 and C53 are about it); the buffers on the stack are values. *)
From stdpp Require Import gmap.
From Verif Require Import Base IntModel VectorModel RelationModel UtilModel StringsModel RelTextModel HeapModel HeapObjects PayloadModel MatModel FullModel.
Local Open Scope string_scope.
Local Open Scope list_scope.
Local Open Scope Z_scope.

(** [for (i = lo; i < hi; i++)] with local variables *)
Fixpoint sfor_loop {S} (k : nat) (i : Z) (f : Z → S → oprog S) (s : S) : oprog S :=
  match k with O => ret s | Datatypes.S k' => s' <== f i s ;; sfor_loop k' (i + 1) f s' end.
Definition sfor {S} (lo hi : Z) (f : Z → S → oprog S) (s : S) : oprog S := sfor_loop (Z.to_nat (hi - lo)) lo f s.

Section PRINT.
Context {cfg : config} {al : Allocator obj}.

(** ** Buffers *)
Fixpoint strcat_grow_h (fuel : nat) (needed : Z) (dst : ptr) (hwm : Z) : oprog (ptr * Z) :=
  match fuel with
  | O => lift OutOfFuel
  | S k =>
      if hwm <=? needed
      then s <== get_str dst ;; free dst ;;== d <== malloc (BStr s) ;; strcat_grow_h k needed d (hwm + MAX_STRING)
      else ret (dst, hwm)
  end.
(** source/util.c:459-466 osl_util_safe_strcat: [b] is the variable that points to the buffer and the high-water mark; OSL_realloc
    may move the buffer. *)
Definition osl_util_safe_strcat_h (b : ptr * Z) (src : str) : oprog (ptr * Z) :=
  s <== get_str (fst b) ;;
  '(dst, hwm) <== strcat_grow_h (S (S (Z.to_nat (zlength s + zlength src - snd b)))) (zlength s + zlength src) (fst b) (snd b) ;;
  s <== get_str dst ;; put dst (BStr (s ++ src)) ;;== ret (dst, hwm).
(** The buffer of OSL_MAX_STRING bytes that the printing functions start with *)
Definition new_buffer : oprog (ptr * Z) := string <== malloc (BStr []) ;; ret (string, MAX_STRING).

(** ** Reading relations *)
(** source/int.c:1203-1223 osl_int_oppose *)
Definition osl_int_oppose_m (p : Z) (variable value : addr) : oprog unit :=
  x <== number p value ;; z <== lift (osl_int_oppose p x) ;; renumber p variable z.
Definition read_coef (p : Z) (m : ptr) (i j : Z) : oprog Z := a <== entry m i j ;; number p a.
Definition fetch_row (p : Z) (m : ptr) (cols i : Z) : oprog (list Z) :=
  sfor 0 cols (λ j l, x <== read_coef p m i j ;; ret (l ++ [x])) [].
Definition fetch_matrix (p : Z) (m : ptr) (rows cols : Z) : oprog (list (list Z)) :=
  if isnull m then ret [] else sfor 0 rows (λ i l, row <== fetch_row p m cols i ;; ret (l ++ [row])) [].
(** The part of a union at [a], and the address of the next one *)
Definition fetch_part (a : ptr) : oprog (relation * ptr) :=
  '(r, m, next) <== get_part a ;;
  mat <== fetch_matrix (rprec r) m (nrows r) (ncols r) ;;
  ret (mkrel (rtype r) (rprec r) (nrows r) (ncols r) (nout r) (nin r) (nloc r) (npar r) mat, next).
Fixpoint fetch_union_loop (fuel : nat) (a : ptr) : oprog (list relation) :=
  match fuel with
  | O => lift OutOfFuel
  | S k => if isnull a then ret [] else '(r, next) <== fetch_part a ;; u <== fetch_union_loop k next ;; ret (r :: u)
  end.
Definition fetch_union (a : ptr) : oprog (list relation) := loop (λ n, fetch_union_loop n a).

(** ** Expressions *)
(** source/relation.c:272-330 osl_relation_expression_element *)
Definition osl_relation_expression_element_h (val p : Z) (first cst : bool) (name : ptr) : oprog (ptr * bool) :=
  temp <== malloc (BStr []) ;; body <== malloc (BStr []) ;; sval <== malloc (BStr []) ;;
  s <== get_str name ;;
  '(t, first') <== lift (osl_relation_expression_element val p first cst s) ;;
  put sval (BStr t) ;;== free temp ;;== free body ;;== ret (sval, first').
(** names->...->string[i] *)
Definition name_at (strings : ptr) (i : Z) : oprog ptr :=
  a <== get_strings strings ;; if i <? 0 then lift UB else ptr_at a (Z.to_nat i).
(** strings[i] = x *)
Definition set_name (strings : ptr) (i : Z) (x : ptr) : oprog unit := if i <? 0 then lift UB else set_ptr strings (Z.to_nat i) x.
Definition new_name (strings : ptr) (i : Z) (s : str) : oprog unit := x <== malloc (BStr s) ;; set_name strings i x.
Definition copy_names_h (src strings : ptr) (lo hi : Z) : oprog unit :=
  zfor lo hi (λ i, x <== name_at src (i - lo) ;; y <== OSL_strdup_p x ;; set_name strings i y).
(** source/relation.c:341-400 osl_relation_strings *)
Definition osl_relation_strings_h (relation names : ptr) : oprog ptr :=
  '(r, _, _) <== get_part relation ;;
  '(n_parameters, n_iterators, n_scatt_dims, n_local_dims, _) <== get_names names ;;
  strings <== new_ptrs (Z.to_nat (ncols r + 1)) ;;
  set_name strings (ncols r) NULL ;;==
  new_name strings 0 (lit "e/i") ;;==
  let offset := 1 in
  (if osl_relation_is_access r then
     new_name strings offset (lit "Arr") ;;==
     zfor (offset + 1) (nout r + offset) (λ i, new_name strings i (lit "[" ++ print_Z (i - 1) ++ lit "]"))
   else if (rtype r =? TYPE_DOMAIN) || (rtype r =? TYPE_CONTEXT) then copy_names_h n_iterators strings offset (nout r + offset)
   else copy_names_h n_scatt_dims strings offset (nout r + offset)) ;;==
  let offset := offset + nout r in
  copy_names_h n_iterators strings offset (nin r + offset) ;;==
  let offset := offset + nin r in
  copy_names_h n_local_dims strings offset (nloc r + offset) ;;==
  let offset := offset + nloc r in
  copy_names_h n_parameters strings offset (npar r + offset) ;;==
  let offset := offset + npar r in
  new_name strings offset (lit "1") ;;==
  ret strings.
(** source/relation.c:415-449 osl_relation_subexpression *)
Definition osl_relation_subexpression_h (relation : ptr) (row start stop : Z) (oppose : bool) (strings : ptr) : oprog ptr :=
  '(r, m, _) <== get_part relation ;;
  sline <== malloc (BStr []) ;;
  sfor start (stop + 1) (λ i first,
    a <== entry m row i ;;
    (if oppose then osl_int_oppose_m (rprec r) a a else ret tt) ;;==
    x <== number (rprec r) a ;;
    name <== (if i <? 0 then lift UB else ptr_at strings (Z.to_nat i)) ;;
    '(sval, first) <== osl_relation_expression_element_h x (rprec r) first (i =? ncols r - 1) name ;;
    (if oppose then osl_int_oppose_m (rprec r) a a else ret tt) ;;==
    line <== get_str sline ;; t <== get_str sval ;;
    line <== lift (buf_store (line ++ t)) ;; put sline (BStr line) ;;==
    free sval ;;== ret first) true ;;==
  ret sline.
(** source/relation.c:460-464 osl_relation_expression *)
Definition osl_relation_expression_h (relation : ptr) (row : Z) (strings : ptr) : oprog ptr :=
  '(r, _, _) <== get_part relation ;; osl_relation_subexpression_h relation row 1 (ncols r - 1) false strings.
(** snprintf(buffer, OSL_MAX_STRING, "...%s", expression); osl_util_safe_strcat(&string, buffer, ...); free(expression) *)
Definition cat_expression (b : ptr * Z) (before : str) (expression : ptr) : oprog (ptr * Z) :=
  e <== get_str expression ;; b <== osl_util_safe_strcat_h b (snp (before ++ e)) ;; free expression ;;== ret b.
(** source/relation.c:527-582 osl_relation_sprint_comment *)
Definition osl_relation_sprint_comment_h (relation : ptr) (row : Z) (strings arrays : ptr) : oprog ptr :=
  b <== new_buffer ;;
  '(r, _) <== fetch_part relation ;;
  sign <== lift (osl_relation_is_simple_output r row) ;;
  if negb (sign =? 0) then
    e <== osl_relation_subexpression_h relation row 1 (nout r) (sign <? 0) strings ;;
    b <== cat_expression b (lit "   ## ") e ;;
    x <== lift (mget (rm r) row 1) ;;
    z <== lift (osl_int_zero (rprec r) x) ;;
    if negb (osl_relation_is_access r) || z then
      e <== osl_relation_subexpression_h relation row (nout r + 1) (ncols r - 1) (0 <? sign) strings ;;
      b <== cat_expression b (lit " == ") e ;;
      ret (fst b)
    else
      u <== fetch_union relation ;;
      id <== lift (osl_relation_get_array_id u) ;;
      name <== (if id - 1 <? 0 then lift UB else ptr_at arrays (Z.to_nat (id - 1))) ;;
      s <== get_str name ;;
      b <== osl_util_safe_strcat_h b (snp (lit " == " ++ s)) ;;
      ret (fst b)
  else
    e <== osl_relation_expression_h relation row strings ;;
    b <== cat_expression b (lit "   ## ") e ;;
    x <== lift (mget (rm r) row 0) ;;
    z <== lift (osl_int_zero (rprec r) x) ;;
    b <== osl_util_safe_strcat_h b (if z then lit " == 0" else lit " >= 0") ;;
    ret (fst b).

(** ** The text of a relation *)
(** The names of the columns, up to the NULL that ends the array *)
Fixpoint fetch_names (fuel : nat) (a : ptr) (i : nat) : oprog (list str) :=
  match fuel with
  | O => lift OutOfFuel
  | S f => x <== ptr_at a i ;; if isnull x then ret [] else s <== get_str x ;; l <== fetch_names f a (S i) ;; ret (s :: l)
  end.
(** source/relation.c:593-656 osl_relation_column_string *)
Definition osl_relation_column_string_h (relation strings : ptr) : oprog ptr :=
  '(r, _, _) <== get_part relation ;;
  scolumn <== malloc (BStr []) ;;
  l <== get_ptrs strings ;; names <== fetch_names (S (List.length l)) strings 0 ;;
  t <== lift (osl_relation_column_string r names) ;;
  put scolumn (BStr t) ;;== ret scolumn.
(** source/names.c:195-209 osl_names_generate; a negative number of names is undefined (C29) *)
Definition strings_generate_h (prefix : str) (nb : Z) : oprog ptr :=
  if nb <? 0 then lift UB else osl_strings_generate_p prefix (Z.to_nat nb).
Definition osl_names_generate_h (pp : str) (np : Z) (pi : str) (ni : Z) (ps : str) (ns : Z) (pl : str) (nl : Z) (pa : str) (na : Z) : oprog ptr :=
  names <== osl_names_malloc_f ;;
  a <== strings_generate_h pp np ;; b <== strings_generate_h pi ni ;; c <== strings_generate_h ps ns ;;
  d <== strings_generate_h pl nl ;; e <== strings_generate_h pa na ;;
  put names (BNames a b c d e) ;;== ret names.
(** source/relation.c:745-757 osl_relation_names *)
Definition osl_relation_names_h (relation : ptr) : oprog ptr :=
  u <== fetch_union relation ;;
  a <== lift (osl_relation_get_attributes u (mkattrs UNDEFINED UNDEFINED UNDEFINED UNDEFINED UNDEFINED)) ;;
  osl_names_generate_h (lit "P") (a_par a) (lit "i") (a_iter a) (lit "c") (a_scat a) (lit "l") (a_loc a) (lit "A") (a_id a).
(** One row: the coefficients, the comment, a newline *)
Definition print_row_h (relation name_array names : ptr) (i : Z) (b : ptr * Z) : oprog (ptr * Z) :=
  '(r, m, _) <== get_part relation ;;
  b <== sfor 0 (ncols r) (λ j b,
    x <== read_coef (rprec r) m i j ;; t <== lift (osl_int_sprint (rprec r) x) ;; t <== lift (buf_store t) ;;
    b <== osl_util_safe_strcat_h b t ;; osl_util_safe_strcat_h b [c_sp]) b ;;
  '(_, _, _, _, n_arrays) <== get_names names ;; arrays <== get_strings n_arrays ;;
  comment <== osl_relation_sprint_comment_h relation i name_array arrays ;;
  c <== get_str comment ;; b <== osl_util_safe_strcat_h b c ;; free comment ;;==
  osl_util_safe_strcat_h b [c_nl].
(** Body of the loop on the parts of source/relation.c:786-875 osl_relation_spprint_polylib *)
Definition print_part_h (nb_parts part : Z) (relation names : ptr) (b : ptr * Z) : oprog (ptr * Z) :=
  name_array <== osl_relation_strings_h relation names ;;
  b <== (if 1 <? nb_parts then osl_util_safe_strcat_h b (lit "# Union part No." ++ print_Z part ++ [c_nl]) else ret b) ;;
  '(r, _, _) <== get_part relation ;;
  b <== osl_util_safe_strcat_h b (snp (print_dims r)) ;;
  b <== (if 0 <? nrows r then
           scolumn <== osl_relation_column_string_h relation name_array ;;
           c <== get_str scolumn ;; b <== osl_util_safe_strcat_h b (snp c) ;; free scolumn ;;== ret b
         else ret b) ;;
  b <== sfor 0 (nrows r) (λ i b, print_row_h relation name_array names i b) b ;;
  pfor (Z.to_nat (ncols r)) 0 (λ i, x <== ptr_at name_array i ;; free x) ;;==
  free name_array ;;==
  ret b.
(** The loop on the parts: the number of parts is counted before, as in the C code *)
Fixpoint print_parts_h (k : nat) (nb_parts part : Z) (relation names : ptr) (b : ptr * Z) : oprog (ptr * Z) :=
  match k with
  | O => ret b
  | S k' => b <== print_part_h nb_parts part relation names b ;; '(_, _, next) <== get_part relation ;;
            print_parts_h k' nb_parts (part + 1) next names b
  end.
(** source/relation.c:786-875 osl_relation_spprint_polylib *)
Definition osl_relation_spprint_polylib_h (relation names : ptr) : oprog ptr :=
  if isnull relation then malloc (BStr (lit "# NULL relation" ++ [c_nl]))
  else
    b <== new_buffer ;;
    local_names <== (if isnull names then osl_relation_names_h relation else ret NULL) ;;
    let the_names := if isnull names then local_names else names in
    nb_parts <== osl_relation_nb_components_m relation ;;
    b <== (if 1 <? nb_parts
           then osl_util_safe_strcat_h b (lit "# Union with " ++ print_Z nb_parts ++ lit " parts" ++ [c_nl] ++ print_Z nb_parts ++ [c_nl])
           else ret b) ;;
    b <== print_parts_h (Z.to_nat nb_parts) nb_parts 1 relation the_names b ;;
    (if isnull names then osl_names_free_f local_names else ret tt) ;;==
    ret (fst b).
(** source/relation.c:103-149 osl_relation_sprint_type *)
Definition osl_relation_sprint_type_h (relation : ptr) : oprog ptr :=
  string <== malloc (BStr []) ;;
  (if isnull relation then ret tt else '(r, _, _) <== get_part relation ;; put string (BStr (type_string (rtype r)))) ;;==
  ret string.
(** osl_util_safe_strcat(&string, temp, ...); free(temp) *)
Definition cat_free (b : ptr * Z) (temp : ptr) : oprog (ptr * Z) :=
  t <== get_str temp ;; b <== osl_util_safe_strcat_h b t ;; free temp ;;== ret b.
(** source/relation.c:1138-1161 osl_relation_spprint *)
Definition osl_relation_spprint_h (relation names : ptr) : oprog ptr :=
  b <== new_buffer ;;
  nb_parts <== osl_relation_nb_components_m relation ;;
  if 0 <? nb_parts then
    temp <== osl_relation_sprint_type_h relation ;; b <== cat_free b temp ;;
    b <== osl_util_safe_strcat_h b [c_nl] ;;
    temp <== osl_relation_spprint_polylib_h relation names ;; b <== cat_free b temp ;;
    ret (fst b)
  else ret (fst b).
(** source/relation.c:1200-1205 osl_relation_pprint, osl_relation_print with NULL for [names]: what is written to the file *)
Definition osl_relation_pprint_h (relation names : ptr) : oprog str :=
  string <== osl_relation_spprint_h relation names ;; t <== get_str string ;; free string ;;== ret t.
(** source/relation.c:1234-1236 osl_relation_sprint *)
Definition osl_relation_sprint_h (relation : ptr) : oprog ptr := osl_relation_spprint_h relation NULL.
End PRINT.
