(** * SaveHeapModel: what printing extensions, statements and scops does to the memory
    (source/generic.c, source/extensions, source/relation_list.c, source/statement.c, source/scop.c)

    Relations are printed by the programs of PrintHeapModel.v, on their real matrices.  The names object is made, copied, changed so
    that it points to strings of the scop, changed back and released as in the C code; the text of every extension is a string that is
    released; the texts are those of ScopModel.v.

    Simplifications: the print function of one extension reads its data as a whole ([fetch_data]) and makes its text at once
    (symbols apart, which contain extensions); the matrices of relations inside extensions are one block (m_union); the functions
    that only read a relation (integrity check, attributes) read it as a whole; what is written to the file is the result of the
    program; the warning of osl_scop_print goes to stderr and is left out. *)
From stdpp Require Import gmap.
From Verif Require Import Base IntModel VectorModel RelationModel UtilModel StringsModel RelTextModel ExtModel ScopModel HeapModel HeapObjects PayloadModel MatModel FullModel PrintHeapModel.
Local Open Scope string_scope.
Local Open Scope list_scope.
Local Open Scope Z_scope.
Notation loop := HeapModel.loop.

Section SAVE.
Context {cfg : config} {al : Allocator obj}.

(** ** Reading the data of an extension *)
Fixpoint fetch_n {A} (k i : nat) (f : nat → oprog A) : oprog (list A) :=
  match k with O => ret [] | S k' => x <== f i ;; l <== fetch_n k' (S i) f ;; ret (x :: l) end.
Definition fetch_array {A} (n : Z) (f : nat → oprog A) : oprog (list A) := fetch_n (Z.to_nat n) 0 f.
Definition fetch_str (p : ptr) : oprog (option str) := if isnull p then ret None else s <== get_str p ;; ret (Some s).
Definition fetch_strings (p : ptr) : oprog (option strings) :=
  if isnull p then ret None
  else a <== get_strings p ;;
       if isnull a then ret (Some None)
       else l <== get_ptrs a ;; names <== fetch_names (S (List.length l)) a 0 ;; ret (Some (Some names)).
Definition fetch_body (p : ptr) : oprog (option body) :=
  if isnull p then ret None
  else '(i, e) <== get_body p ;; i <== fetch_strings i ;; e <== fetch_strings e ;; ret (Some (Body i e)).
Definition fetch_extbody (p : ptr) : oprog extbody :=
  '(n, s, l, b) <== get_extbody p ;;
  acc <== fetch_array n (λ i, x <== int_at s i ;; y <== int_at l i ;; ret (x, y)) ;;
  b <== fetch_body b ;; ret (Extbody acc b).
Definition fetch_arrays (p : ptr) : oprog arrays :=
  '(n, i, m) <== get_arrays p ;;
  fetch_array n (λ k, x <== int_at i k ;; q <== ptr_at m k ;; s <== get_str q ;; ret (x, s)).
Definition fetch_comment (p : ptr) : oprog (option str) := t <== get_holder p ;; fetch_str t.
Definition fetch_scatnames (p : ptr) : oprog scatnames := n <== get_scatnames p ;; fetch_strings n.
Definition fetch_coordinates (p : ptr) : oprog coordinates :=
  '(n, a, b, c, d, e) <== get_coordinates p ;; s <== fetch_str n ;; ret (Coordinates s a b c d e).
Definition fetch_scatinfos (p : ptr) : oprog scatinfos :=
  '(n, a, b, c) <== get_scatinfos p ;;
  fetch_array n (λ i, x <== int_at a i ;; y <== int_at b i ;; z <== int_at c i ;; ret (Scatinfo x y z)).
Definition fetch_text (t : textrec) : oprog text_lines :=
  fetch_array (t_count t) (λ i, x <== int_at (t_types t) i ;; q <== ptr_at (t_lines t) i ;; s <== fetch_str q ;; ret (x, s)).
Definition fetch_annotation (p : ptr) : oprog annotation :=
  '(t, u) <== get_annotation p ;; t <== fetch_text t ;; u <== fetch_text u ;; ret (Annotation t u).
(** A chain of nodes: [one] reads a node and gives the address of the next one. *)
Fixpoint fetch_chain {A} (one : ptr → oprog (A * ptr)) (fuel : nat) (p : ptr) : oprog (list A) :=
  match fuel with
  | O => lift OutOfFuel
  | S f => if isnull p then ret [] else '(x, n) <== one p ;; l <== fetch_chain one f n ;; ret (x :: l)
  end.
Definition fetch_list {A} (one : ptr → oprog (A * ptr)) (p : ptr) : oprog (list A) := loop (λ n, fetch_chain one n p).
Definition fetch_region (p : ptr) : oprog (region * ptr) :=
  '(l, t, u, v, w, n) <== get_region p ;;
  t <== fetch_text t ;; u <== fetch_text u ;; v <== fetch_text v ;; w <== fetch_text w ;; ret (Region l t u v w, n).
Definition fetch_loop (p : ptr) : oprog (ExtModel.loop * ptr) :=
  '(i, k, s, pv, d, u, n) <== get_loop p ;;
  i <== fetch_str i ;; s <== fetch_array k (int_at s) ;; pv <== fetch_str pv ;; u <== fetch_str u ;; ret (Loop i s pv d u, n).
Definition fetch_unroll (p : ptr) : oprog (unroll * ptr) :=
  '(i, j, f, n) <== get_unroll p ;; i <== fetch_str i ;; ret (Unroll i j f, n).
Definition fetch_runion (p : ptr) : oprog (list relation) := fetch_list read_part p.
Definition fetch_dependence (p : ptr) : oprog (dependence * ptr) :=
  '(l, d, n) <== get_dependence p ;; u <== fetch_runion d ;;
  match l with
  | a :: b :: c :: e :: f :: g :: dims => ret (Dependence a b c e f g u dims, n)
  | _ => lift UB
  end.
(** The data at [p], that is not NULL, read by the function of the kind [k] *)
Definition fetch_data (k : kind) (p : ptr) : oprog edata :=
  match k with
  | KStrings => o <== fetch_strings p ;; match o with Some s => ret (DStrings s) | None => lift UB end
  | KBody => o <== fetch_body p ;; match o with Some b => ret (DBody b) | None => lift UB end
  | KRelation => u <== fetch_runion p ;; ret (DRelation u)
  | KTextual => t <== fetch_comment p ;; ret (DTextual t)
  | KComment => t <== fetch_comment p ;; ret (DComment t)
  | KClay => t <== fetch_comment p ;; ret (DClay t)
  | KNull => b <== get_block p ;; match b with BNull => ret DNull | _ => lift UB end
  | KScatinfos => i <== fetch_scatinfos p ;; ret (DScatinfos i)
  | KScatnames => n <== fetch_scatnames p ;; ret (DScatnames n)
  | KArrays => a <== fetch_arrays p ;; ret (DArrays a)
  | KCoordinates => c <== fetch_coordinates p ;; ret (DCoordinates c)
  | KDependence => l <== fetch_list fetch_dependence p ;; ret (DDependence l)
  | KSymbols => lift UB                            (* not used: see generic_sprint_loop *)
  | KExtbody => e <== fetch_extbody p ;; ret (DExtbody e)
  | KLoop => l <== fetch_list fetch_loop p ;; ret (DLoop l)
  | KPlutoUnroll => l <== fetch_list fetch_unroll p ;; ret (DPlutoUnroll l)
  | KRegion => l <== fetch_list fetch_region p ;; ret (DRegion l)
  | KAnnotation => a <== fetch_annotation p ;; ret (DAnnotation a)
  end.

(** ** Extensions *)
(** The sprint functions of the interfaces, symbols apart: a new string, or NULL *)
Definition data_sprint_h (k : kind) (p : ptr) : oprog ptr :=
  o <== (if isnull p then lift (null_sprint k) else d <== fetch_data k p ;; lift (data_sprint k d)) ;;
  match o with None => ret NULL | Some t => malloc (BStr t) end.
Fixpoint nb_symbols_loop (fuel : nat) (symbols : ptr) : oprog Z :=
  match fuel with
  | O => lift OutOfFuel
  | S f => if isnull symbols then ret 0 else '(_, _, _, _, _, _, _, n) <== get_symbols symbols ;; k <== nb_symbols_loop f n ;; ret (k + 1)
  end.
(** source/extensions/symbols.c:532-540 osl_symbols_get_nb_symbols *)
Definition osl_symbols_get_nb_symbols_h (symbols : ptr) : oprog Z := loop (λ n, nb_symbols_loop n symbols).
(** sprintf(buffer, "<%s>\n", URI) and sprintf(buffer, "</%s>\n", URI) *)
Definition tag_line (slash : str) (uri : ptr) : oprog str :=
  u <== fetch_str uri ;; lift (buf_store (c_lt :: slash ++ pr u ++ [c_gt; c_nl])).
(** source/generic.c:152-180 osl_generic_sprint and source/extensions/symbols.c:216-301 osl_symbols_sprint: the loops, on the buffer [b] *)
Fixpoint generic_sprint_loop (fuel : nat) (generic : ptr) (b : ptr * Z) : oprog (ptr * Z) :=
  match fuel with
  | O => lift OutOfFuel
  | S f =>
      if isnull generic then ret b
      else '(data, i, _) <== get_gen_b generic ;;
           b <== (if isnull i then ret b
                  else k <== kind_at i ;;
                       content <== match k with
                                   | KSymbols =>
                                       s <== new_buffer ;; n <== osl_symbols_get_nb_symbols_h data ;;
                                       s <== osl_util_safe_strcat_h s (ln (lit "# Number of symbols") ++ lnZ n) ;;
                                       s <== symbols_sprint_loop f data 1 s ;; ret (fst s)
                                   | _ => data_sprint_h k data
                                   end ;;
                       if isnull content then ret b
                       else '(u, _, _) <== get_iface_b i ;;
                            buffer <== tag_line [] u ;; b <== osl_util_safe_strcat_h b buffer ;;
                            c <== get_str content ;; b <== osl_util_safe_strcat_h b c ;; free content ;;==
                            buffer <== tag_line [c_slash] u ;; osl_util_safe_strcat_h b buffer) ;;
           '(_, _, next) <== get_gen_b generic ;;
           b <== (if isnull next then ret b else osl_util_safe_strcat_h b [c_nl]) ;;
           generic_sprint_loop f next b
  end
with symbols_sprint_loop (fuel : nat) (symbols : ptr) (i : Z) (b : ptr * Z) : oprog (ptr * Z) :=
  match fuel with
  | O => lift OutOfFuel
  | S f =>
      if isnull symbols then ret b
      else
        '(ty, gen, dims, a, d, c, e, next) <== get_symbols symbols ;;
        b <== osl_util_safe_strcat_h b (ln (lit "# ===========================================")) ;;
        b <== osl_util_safe_strcat_h b (lit "# " ++ print_Z i ++ lit " Data for symbol number " ++ print_Z i ++ ln [c_sp]) ;;
        b <== osl_util_safe_strcat_h b (lit "# " ++ print_Z i ++ ln (lit ".1 Symbol type")) ;;
        b <== osl_util_safe_strcat_h b (ln (symbol_type_string ty)) ;;
        b <== osl_util_safe_strcat_h b (symbol_title i (lit ".2 Generated Boolean") ++ lnZ gen) ;;
        b <== osl_util_safe_strcat_h b (symbol_title i (lit ".3 Number of dimensions") ++ lnZ dims) ;;
        b <== osl_util_safe_strcat_h b (symbol_title i (lit ".4 Identifier")) ;;
        s <== new_buffer ;; temp <== generic_sprint_loop f a s ;; b <== cat_free b (fst temp) ;;
        b <== osl_util_safe_strcat_h b (symbol_title i (lit ".5 Datatype")) ;;
        s <== new_buffer ;; temp <== generic_sprint_loop f d s ;; b <== cat_free b (fst temp) ;;
        b <== osl_util_safe_strcat_h b (symbol_title i (lit ".6 Scope")) ;;
        s <== new_buffer ;; temp <== generic_sprint_loop f c s ;; b <== cat_free b (fst temp) ;;
        b <== osl_util_safe_strcat_h b (symbol_title i (lit ".7 Extent")) ;;
        s <== new_buffer ;; temp <== generic_sprint_loop f e s ;; b <== cat_free b (fst temp) ;;
        symbols_sprint_loop f next (i + 1) b
  end.
Definition osl_generic_sprint_h (generic : ptr) : oprog ptr :=
  b <== new_buffer ;; b <== loop (λ n, generic_sprint_loop n generic b) ;; ret (fst b).
(** source/extensions/symbols.c:216-301 osl_symbols_sprint *)
Definition osl_symbols_sprint_h (symbols : ptr) : oprog ptr :=
  s <== new_buffer ;; n <== osl_symbols_get_nb_symbols_h symbols ;;
  s <== osl_util_safe_strcat_h s (ln (lit "# Number of symbols") ++ lnZ n) ;;
  s <== loop (λ n, symbols_sprint_loop n symbols 1 s) ;; ret (fst s).
(** source/generic.c:189-197 osl_generic_print *)
Definition osl_generic_print_h (generic : ptr) : oprog str :=
  string <== osl_generic_sprint_h generic ;; t <== get_str string ;; free string ;;== ret t.
(** source/generic.c:636-642 osl_generic_has_URI *)
Definition has_URI_h (generic : ptr) (uri : str) : oprog bool :=
  if isnull generic then ret false else osl_generic_has_URI_f generic uri.
(** The data of an extension *)
Definition data_of (generic : ptr) : oprog ptr := '(d, _, _) <== get_gen_b generic ;; ret d.

(** ** Arrays *)
Fixpoint max_id_loop (k i : nat) (id : ptr) (m : Z) : oprog Z :=
  match k with O => ret m | S k' => x <== int_at id i ;; max_id_loop k' (S i) id (if m <? x then x else m) end.
(** source/extensions/arrays.c:348-371 osl_arrays_to_strings; a NULL array of strings is dereferenced at NULL plus an offset *)
Definition osl_arrays_to_strings_h (arrays : ptr) : oprog ptr :=
  if isnull arrays then ret NULL
  else '(n, id, names) <== get_arrays arrays ;;
       m <== (if 1 <=? n then x <== int_at id 0 ;; max_id_loop (Z.to_nat (n - 1)) 1 id x else ret 0) ;;
       strings <== strings_generate_h (lit "Dummy") m ;;
       pfor (Z.to_nat n) 0 (λ i,
         x <== int_at id i ;; old <== name_at strings (x - 1) ;; free old ;;==
         s <== ptr_at names i ;; new <== OSL_strdup_p s ;;
         a <== get_strings strings ;; set_name a (x - 1) new) ;;==
       ret strings.

(** ** Lists of relations *)
Fixpoint list_count_loop (fuel : nat) (list : ptr) : oprog Z :=
  match fuel with
  | O => lift OutOfFuel
  | S f => if isnull list then ret 0
           else '(elt, next) <== get_list list ;; k <== list_count_loop f next ;; ret ((if isnull elt then 0 else 1) + k)
  end.
(** source/relation_list.c:708-718 osl_relation_list_count *)
Definition osl_relation_list_count_h (list : ptr) : oprog Z := loop (λ n, list_count_loop n list).
Fixpoint pprint_elts_loop (fuel : nat) (head names : ptr) : oprog str :=
  match fuel with
  | O => lift OutOfFuel
  | S f =>
      if isnull head then ret []
      else '(elt, next) <== get_list head ;;
           t <== (if isnull elt then ret []
                  else t <== osl_relation_pprint_h elt names ;; ret (t ++ if isnull next then [] else [c_nl])) ;;
           r <== pprint_elts_loop f next names ;; ret (t ++ r)
  end.
(** source/relation_list.c:152-176 osl_relation_list_pprint_elts *)
Definition osl_relation_list_pprint_elts_h (list names : ptr) : oprog str :=
  i <== osl_relation_list_count_h list ;;
  if 0 <? i then loop (λ n, pprint_elts_loop n list names) else ret (ln (lit "# NULL relation list")).
Fixpoint list_check_loop (fuel : nat) (list : ptr) (type eo ei ep : Z) : oprog bool :=
  match fuel with
  | O => lift OutOfFuel
  | S f => if isnull list then ret true
           else '(elt, next) <== get_list list ;; u <== fetch_union elt ;;
                b <== lift (osl_relation_integrity_check u type eo ei ep) ;;
                if b : bool then list_check_loop f next type eo ei ep else ret false
  end.
Fixpoint list_attributes_loop (fuel : nat) (list : ptr) (loc a : attrs) : oprog attrs :=
  match fuel with
  | O => lift OutOfFuel
  | S f => if isnull list then ret a
           else '(elt, next) <== get_list list ;; u <== fetch_union elt ;;
                loc <== lift (osl_relation_get_attributes u loc) ;; list_attributes_loop f next loc (attrs_max a loc)
  end.

(** ** Statements *)
Fixpoint statement_attributes_loop (fuel : nat) (statement : ptr) (loc a : attrs) : oprog attrs :=
  match fuel with
  | O => lift OutOfFuel
  | S f =>
      if isnull statement then ret a
      else '(d, s, l, _, next) <== get_stmt_b statement ;;
           u <== fetch_union d ;; loc <== lift (osl_relation_get_attributes u loc) ;;
           u <== fetch_union s ;; loc <== lift (osl_relation_get_attributes u loc) ;;
           loc <== loop (λ n, list_attributes_loop n l undefined_attrs loc) ;;
           statement_attributes_loop f next loc (attrs_max a loc)
  end.
(** source/statement.c:802-832 osl_statement_get_attributes *)
Definition osl_statement_get_attributes_h (statement : ptr) (a : attrs) : oprog attrs :=
  loop (λ n, statement_attributes_loop n statement undefined_attrs a).
Definition names_of_h (a : attrs) : oprog ptr :=
  osl_names_generate_h (lit "P") (a_par a) (lit "i") (a_iter a) (lit "c") (a_scat a) (lit "l") (a_loc a) (lit "A") (a_id a).
(** source/statement.c:169-181 osl_statement_names *)
Definition osl_statement_names_h (statement : ptr) : oprog ptr :=
  a <== osl_statement_get_attributes_h statement undefined_attrs ;; names_of_h a.
(** body->iterators, NULL without body *)
Definition iterators_of (ext : ptr) : oprog ptr :=
  body <== osl_generic_lookup_f ext (uri_of KBody) ;;
  if isnull body then ret NULL else '(i, _) <== get_body body ;; ret i.
Fixpoint statement_check_loop (fuel : nat) (statement : ptr) (ep : Z) : oprog bool :=
  match fuel with
  | O => lift OutOfFuel
  | S f =>
      if isnull statement then ret true
      else '(d, s, l, e, next) <== get_stmt_b statement ;;
           u <== fetch_union d ;; b <== lift (osl_relation_integrity_check u TYPE_DOMAIN UNDEFINED 0 ep) ;;
           if negb b then ret false else
           let ei := first_nout u in
           u <== fetch_union s ;; b <== lift (osl_relation_integrity_check u TYPE_SCATTERING UNDEFINED ei ep) ;;
           if negb b then ret false else
           b <== loop (λ n, list_check_loop n l TYPE_ACCESS UNDEFINED ei ep) ;;
           if negb (b : bool) then ret false else
           i <== iterators_of e ;;
           bad <== (if isnull i then ret false
                    else n <== osl_strings_size_p i ;; ret (negb (ei =? UNDEFINED) && negb (ei mod 2 ^ 64 =? Z.of_nat n))) ;;
           if (bad : bool) then ret false else statement_check_loop f next ep
  end.
(** source/statement.c:720-766 osl_statement_integrity_check *)
Definition osl_statement_integrity_check_h (statement : ptr) (ep : Z) : oprog bool := loop (λ n, statement_check_loop n statement ep).
(** names->iterators = x *)
Definition set_iterators (names x : ptr) : oprog unit := '(a, _, c, d, e) <== get_names names ;; put names (BNames a x c d e).
(** One iteration of source/statement.c:191-269 osl_statement_pprint *)
Definition statement_pprint_one_h (number : Z) (statement names : ptr) : oprog str :=
  '(d, s, l, e, _) <== get_stmt_b statement ;;
  it <== iterators_of e ;;
  '(_, iterators_backup, _, _, _) <== get_names names ;;
  (if isnull it then ret tt else set_iterators names it) ;;==
  count <== osl_relation_list_count_h l ;;
  let nb := (if isnull d then 0 else 1) + (if isnull s then 0 else 1) + count in
  td <== osl_relation_pprint_h d names ;;
  ts <== osl_relation_pprint_h s names ;;
  ta <== osl_relation_list_pprint_elts_h l names ;;
  nb_ext <== osl_generic_count_f e ;;
  te <== (if 0 <? nb_ext then osl_generic_print_h e else ret []) ;;
  (if isnull it then ret tt else set_iterators names iterators_backup) ;;==
  ret (rule_title (lit "Statement " ++ print_Z number)
      ++ ln (lit "# Number of relations describing the statement:") ++ lnZ nb ++ [c_nl]
      ++ section_title number (lit ".1 Domain") ++ td ++ [c_nl]
      ++ section_title number (lit ".2 Scattering") ++ ts ++ [c_nl]
      ++ section_title number (lit ".3 Access") ++ ta ++ [c_nl]
      ++ section_title number (lit ".4 Statement Extensions")
      ++ ln (lit "# Number of Statement Extensions") ++ lnZ nb_ext ++ te ++ [c_nl]).
Fixpoint statements_pprint_loop (fuel : nat) (number : Z) (statement names : ptr) : oprog str :=
  match fuel with
  | O => lift OutOfFuel
  | S f => if isnull statement then ret []
           else a <== statement_pprint_one_h number statement names ;;
                '(_, _, _, _, next) <== get_stmt_b statement ;;
                b <== statements_pprint_loop f (number + 1) next names ;; ret (a ++ b)
  end.
(** source/statement.c:191-269 osl_statement_pprint *)
Definition osl_statement_pprint_h (statement input_names : ptr) : oprog str :=
  names <== (if isnull input_names then osl_statement_names_h statement else osl_names_clone_f input_names) ;;
  t <== loop (λ n, statements_pprint_loop n 1 statement names) ;;
  osl_names_free_f names ;;==
  ret t.
(** source/statement.c:366-368 osl_statement_print *)
Definition osl_statement_print_h (statement : ptr) : oprog str := osl_statement_pprint_h statement NULL.
Fixpoint statement_number_loop (fuel : nat) (statement : ptr) : oprog Z :=
  match fuel with
  | O => lift OutOfFuel
  | S f => if isnull statement then ret 0 else '(_, _, _, _, n) <== get_stmt_b statement ;; k <== statement_number_loop f n ;; ret (k + 1)
  end.
(** source/statement.c:548-556 osl_statement_number *)
Definition osl_statement_number_h (statement : ptr) : oprog Z := loop (λ n, statement_number_loop n statement).

(** ** Scops *)
Fixpoint scop_attributes_loop (fuel : nat) (scop : ptr) (loc a : attrs) : oprog attrs :=
  match fuel with
  | O => lift OutOfFuel
  | S f =>
      if isnull scop then ret a
      else '(_, _, c, _, s, _, _, next) <== get_scop_b scop ;;
           u <== fetch_union c ;; loc <== lift (osl_relation_get_attributes u loc) ;;
           loc <== osl_statement_get_attributes_h s loc ;;
           scop_attributes_loop f next loc (attrs_max a loc)
  end.
(** source/scop.c:186-198 osl_scop_names *)
Definition osl_scop_names_h (scop : ptr) : oprog ptr :=
  a <== loop (λ n, scop_attributes_loop n scop undefined_attrs undefined_attrs) ;; names_of_h a.
Fixpoint scop_check_loop (fuel : nat) (scop : ptr) : oprog bool :=
  match fuel with
  | O => lift OutOfFuel
  | S f =>
      if isnull scop then ret true
      else '(_, _, c, _, s, _, _, next) <== get_scop_b scop ;;
           u <== fetch_union c ;; b <== lift (osl_relation_integrity_check u TYPE_CONTEXT UNDEFINED UNDEFINED UNDEFINED) ;;
           if negb b then ret false else
           b <== osl_statement_integrity_check_h s (first_npar u) ;;
           if negb (b : bool) then ret false else scop_check_loop f next
  end.
(** source/scop.c:759-790 osl_scop_integrity_check *)
Definition osl_scop_integrity_check_h (scop : ptr) : oprog bool := loop (λ n, scop_check_loop n scop).
(** names->parameters = x, names->arrays = x *)
Definition set_parameters (names x : ptr) : oprog unit := '(_, b, c, d, e) <== get_names names ;; put names (BNames x b c d e).
Definition set_arrays (names x : ptr) : oprog unit := '(a, b, c, d, _) <== get_names names ;; put names (BNames a b c d x).
(** One iteration of source/scop.c:207-291 osl_scop_print *)
Definition scop_print_one_h (scop names : ptr) : oprog str :=
  '(_, l, c, p, s, _, e, _) <== get_scop_b scop ;;
  parameters_backedup <== has_URI_h p (uri_of KStrings) ;;
  '(parameters_backup, _, _, _, _) <== get_names names ;;
  (if parameters_backedup then x <== data_of p ;; set_parameters names x else ret tt) ;;==
  arrays <== osl_generic_lookup_f e (uri_of KArrays) ;;
  '(_, _, _, _, arrays_backup) <== get_names names ;;
  (if isnull arrays then ret tt else x <== osl_arrays_to_strings_h arrays ;; set_arrays names x) ;;==
  language <== fetch_str l ;;
  tc <== osl_relation_pprint_h c names ;;
  provided <== has_URI_h p (uri_of KStrings) ;;
  tp <== osl_generic_print_h p ;;
  number <== osl_statement_number_h s ;;
  ts <== osl_statement_pprint_h s names ;;
  te <== (if isnull e then ret [] else t <== osl_generic_print_h e ;; ret (rule_title (lit "Extensions") ++ t)) ;;
  (if parameters_backedup then set_parameters names parameters_backup else ret tt) ;;==
  (if isnull arrays then ret tt
   else '(_, _, _, _, x) <== get_names names ;; osl_strings_free_p x ;;== set_arrays names arrays_backup) ;;==
  ret (c_nl :: ln (tag_of uri_scop) ++ [c_nl]
      ++ rule_title (lit "Global") ++ ln (lit "# Language") ++ ln (pr language) ++ [c_nl]
      ++ ln (lit "# Context") ++ tc ++ [c_nl]
      ++ osl_util_print_provided provided (lit "Parameters are") ++ tp
      ++ c_nl :: ln (lit "# Number of statements") ++ lnZ number ++ [c_nl]
      ++ ts ++ te
      ++ c_nl :: ln (endtag_of uri_scop) ++ [c_nl]).
Fixpoint scops_print_loop (fuel : nat) (scop names : ptr) : oprog str :=
  match fuel with
  | O => lift OutOfFuel
  | S f => if isnull scop then ret []
           else a <== scop_print_one_h scop names ;;
                '(_, _, _, _, _, _, _, next) <== get_scop_b scop ;;
                b <== scops_print_loop f next names ;; ret (a ++ b)
  end.
(** source/scop.c:207-291 osl_scop_print *)
Definition osl_scop_print_h (scop : ptr) : oprog str :=
  if isnull scop then ret (ln (lit "# NULL scop"))
  else
    b <== osl_scop_integrity_check_h scop ;;
    names <== osl_scop_names_h scop ;;
    t <== loop (λ n, scops_print_loop n scop names) ;;
    osl_names_free_f names ;;==
    ret (lit "# [File generated by the OpenScop Library " ++ release ++ ln (lit "]") ++ t).
End SAVE.
