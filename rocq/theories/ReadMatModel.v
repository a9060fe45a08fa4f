(** * ReadMatModel: lists, statements and scops in memory with every coefficient in a block of its own: read, copy, filter, release
    (source/relation.c, source/relation_list.c, source/statement.c, source/scop.c)

    As in ReadHeapModel.v, HeapObjects.v and FullModel.v, but the relations are those of MatModel.v: the matrix that a reader fills
    is allocated by osl_relation_pmalloc, every number that is read is written in its own variable (a GMP number in the memory that it
    owns), and the release of a relation clears every number.

    Simplifications: as in ReadHeapModel.v; the relations inside extensions (domains of dependences, textual relations of the
    interface osl_relation) are read by ReadHeapModel.v, their matrix is one block; osl_int_sread computes its result, then it is
    written to the variable. *)
From stdpp Require Import gmap.
From Verif Require Import Base IntModel VectorModel RelationModel UtilModel StringsModel RelTextModel ExtModel ScopModel HeapModel HeapObjects PayloadModel MatModel FullModel PrintHeapModel SaveHeapModel ReadHeapModel.
Notation loop := HeapModel.loop.

Section READ.
Context {cfg : config} {al : Allocator obj}.
Variable env : option str.

(** ** source/relation.c: reading *)
(** [sscanf(c, "%s%n", str, &n); osl_int_sread(&str, precision, &m[i][j]); c += n]: source/relation.c:1393-1399 and 1513-1519 *)
Definition read_cell_m (p : Z) (m : ptr) (i j : Z) (c : str) (sc : scratch) : oprog (str * scratch) :=
  a <== entry m i j ;;
  old <== number p a ;;
  '(v, c, sc) <== lift (read_cell p c sc old) ;;
  renumber p a v ;;== ret (c, sc).
(** The loop on the columns of one row, with its test for the end of the line: source/relation.c:1390-1400 osl_relation_pread *)
Definition row_fill_m (p : Z) (m : ptr) (i cols : Z) (c : str) (sc : scratch) : oprog (str * scratch) :=
  hfor (Z.to_nat cols) 0 (λ j '(c, sc),
    if match c with ch :: _ => ceqb ch c_hash || ceqb ch c_nl | [] => false end then lift Err
    else read_cell_m p m i j c sc) (c, sc).
(** The loop on the rows of source/relation.c:1384-1401 osl_relation_pread *)
Definition rows_fill_fm (p : Z) (relation : ptr) (f : file) (sc : scratch) : oprog (file * scratch) :=
  '(r, m, _) <== get_part relation ;;
  hfor (Z.to_nat (nrows r)) 0 (λ i '(f, sc),
    '(o, f) <== lift (osl_util_skip_blank_and_comments f) ;;
    match o with
    | None => lift Err
    | Some c => '(_, sc) <== row_fill_m p m i (ncols r) c sc ;; ret (f, sc)
    end) (f, sc).
(** The loop on the rows of source/relation.c:1505-1521 osl_relation_psread_polylib *)
Definition rows_fill_m (p : Z) (relation : ptr) (s : str) (sc : scratch) : oprog (str * scratch) :=
  '(r, m, _) <== get_part relation ;;
  hfor (Z.to_nat (nrows r)) 0 (λ i '(s, sc),
    s <== lift (osl_util_sskip_blank_and_comments s) ;; row_fill_m p m i (ncols r) s sc) (s, sc).
(** The part allocated for the six attributes [d]: source/relation.c:1376-1382 and 1497-1503 *)
Definition new_part_m (p type : Z) (d : list Z) : oprog ptr :=
  match d with
  | [nr; nc; o; i; l; q] =>
      relation <== osl_relation_pmalloc_m p nr nc ;;
      '(r, m, n) <== get_part relation ;;
      put relation (BRel (head type (rprec r) (nrows r) (ncols r) o i l q) m n) ;;==
      ret relation
  | _ => lift UB
  end.
(** The loops on the parts of source/relation.c:1333-1416 osl_relation_pread, with at least one part *)
Fixpoint read_parts_fm (p type : Z) (k : nat) (d : list Z) (first : bool) (relation_union previous : ptr) (f : file) (sc : scratch) : oprog (ptr * file) :=
  relation <== new_part_m p type d ;;
  '(f, sc) <== rows_fill_fm p relation f sc ;;
  (if first then ret tt else set_part_next previous relation) ;;==
  let relation_union := if first then relation else relation_union in
  match k with
  | O => ret (relation_union, f)
  | S k' => '(d, f) <== lift (next_dims_f f) ;; read_parts_fm p type k' d false relation_union relation f sc
  end.
(** source/relation.c:1333-1416 osl_relation_pread *)
Definition osl_relation_pread_m (f : file) (p : Z) : oprog (ptr * file) :=
  '(type, f) <== osl_relation_read_type_fh f ;;
  '(n, d, f) <== lift (first_dims_f f) ;;
  read_parts_fm p type (Z.to_nat (n - 1)) d true NULL NULL f (Scratch None None).
(** source/relation.c:1569-1572 osl_relation_read *)
Definition osl_relation_read_m (f : file) : oprog (ptr * file) := osl_relation_pread_m f (osl_util_get_precision env).
(** The loops on the parts of source/relation.c:1447-1536 osl_relation_psread_polylib *)
Fixpoint read_parts_m (p : Z) (k : nat) (d : list Z) (first : bool) (relation_union previous : ptr) (s : str) (sc : scratch) : oprog (ptr * str) :=
  relation <== new_part_m p UNDEFINED d ;;
  '(s, sc) <== rows_fill_m p relation s sc ;;
  (if first then ret tt else set_part_next previous relation) ;;==
  let relation_union := if first then relation else relation_union in
  match k with
  | O => ret (relation_union, s)
  | S k' => '(d, s, sc) <== lift (next_dims_s s sc) ;; read_parts_m p k' d false relation_union relation s sc
  end.
(** source/relation.c:1447-1536 osl_relation_psread_polylib *)
Definition osl_relation_psread_polylib_m (s : str) (p : Z) : oprog (ptr * str) :=
  '(n, d, s, sc) <== lift (first_dims_s s (Scratch None None)) ;;
  read_parts_m p (Z.to_nat (n - 1)) d true NULL NULL s sc.
(** source/relation.c:1425-1434 osl_relation_psread *)
Definition osl_relation_psread_m (s : str) (p : Z) : oprog (ptr * str) :=
  '(type, o) <== osl_relation_read_type_h s ;;
  match o with
  | None => lift UB
  | Some s =>
      '(relation, s) <== osl_relation_psread_polylib_m s p ;;
      '(r, m, n) <== get_part relation ;;
      put relation (BRel (with_type r type) m n) ;;==
      ret (relation, s)
  end.

(** ** source/relation_list.c *)
Fixpoint list_free_loop_m (fuel : nat) (list : ptr) : oprog unit :=
  match fuel with
  | O => lift OutOfFuel
  | S f =>
      if isnull list then ret tt
      else '(elt, _) <== get_list list ;;
           (if isnull elt then ret tt else osl_relation_free_m elt) ;;==
           '(_, tmp) <== get_list list ;;
           free list ;;==
           list_free_loop_m f tmp
  end.
(** source/relation_list.c:394-407 osl_relation_list_free *)
Definition osl_relation_list_free_m (list : ptr) : oprog unit := if isnull list then ret tt else loop (λ n, list_free_loop_m n list).
(** source/relation_list.c:421-429 osl_relation_list_node *)
Definition osl_relation_list_node_m (r : ptr) : oprog ptr :=
  if isnull r then ret NULL
  else new <== osl_relation_list_malloc_p ;;
       c <== osl_relation_clone_m r ;;
       '(_, n) <== get_list new ;;
       store new (CList c n) ;;==
       ret new.
Fixpoint list_clone_loop_m (fuel : nat) (list : ptr) (first : bool) (clone previous : ptr) : oprog ptr :=
  match fuel with
  | O => lift OutOfFuel
  | S f =>
      if isnull list then ret clone
      else node <== osl_relation_list_malloc_p ;;
           '(elt, _) <== get_list list ;;
           c <== osl_relation_clone_m elt ;;
           '(_, n) <== get_list node ;;
           store node (CList c n) ;;==
           '(_, next) <== get_list list ;;
           (if first then ret tt else set_list_next previous node) ;;==
           list_clone_loop_m f next false (if first then node else clone) node
  end.
(** source/relation_list.c:438-459 osl_relation_list_clone *)
Definition osl_relation_list_clone_m (list : ptr) : oprog ptr := loop (λ n, list_clone_loop_m n list true NULL NULL).
(** The test of source/relation_list.c:669-699 osl_relation_list_filter on the element [elt]. *)
Definition filter_test_m (elt : ptr) (type : Z) : oprog bool :=
  if isnull elt then ret false
  else '(r, _, _) <== get_part elt ;;
       ret (((type =? TYPE_ACCESS)%Z && osl_relation_is_access r) || (negb (type =? TYPE_ACCESS)%Z && (type =? rtype r)%Z)).
Fixpoint list_filter_loop_m (fuel : nat) (type : Z) (copy : ptr) (first : bool) (filtered previous : ptr) : oprog ptr :=
  match fuel with
  | O => lift OutOfFuel
  | S f =>
      if isnull copy then ret filtered
      else '(elt, next) <== get_list copy ;;
           keep <== filter_test_m elt type ;;
           if keep : bool then
             list_filter_loop_m f type next false (if first then copy else filtered) copy
           else
             (if first then ret tt else set_list_next previous next) ;;==
             set_list_next copy NULL ;;==
             osl_relation_list_free_m copy ;;==
             list_filter_loop_m f type next first filtered previous
  end.
(** source/relation_list.c:669-699 osl_relation_list_filter *)
Definition osl_relation_list_filter_m (list : ptr) (type : Z) : oprog ptr :=
  copy <== osl_relation_list_clone_m list ;; loop (λ n, list_filter_loop_m n type copy true NULL NULL).
Fixpoint relations_fill_m (n : nat) (list : ptr) (f : file) (p : Z) : oprog file :=
  match n with
  | O => ret f
  | S k => '(elt, f) <== osl_relation_pread_m f p ;;
           store list (CList elt NULL) ;;==
           match k with
           | O => ret f
           | _ => next <== osl_relation_list_malloc_p ;; set_list_next list next ;;== relations_fill_m k next f p
           end
  end.
(** source/relation_list.c:330-352 osl_relation_list_pread *)
Definition osl_relation_list_pread_m (f : file) (p : Z) : oprog (ptr * file) :=
  '(nb_mat, f) <== lift (osl_util_read_int_f f) ;;
  if Z.ltb nb_mat 0 then lift Err
  else res <== osl_relation_list_malloc_p ;;
       f <== relations_fill_m (Z.to_nat nb_mat) res f p ;;
       ret (res, f).

(** ** source/statement.c *)
(** The element of a list with one node, which is taken over, and the release of the list: source/statement.c:393-400 and 408-415 *)
Definition take_elt_m (list : ptr) : oprog ptr :=
  if isnull list then ret NULL
  else '(elt, n) <== get_list list ;;
       store list (CList NULL n) ;;==
       osl_relation_list_free_m list ;;==
       ret elt.
(** source/statement.c:383-425 osl_statement_dispatch: the fields of the statement *)
Definition osl_statement_dispatch_m (list : ptr) : oprog (ptr * ptr * ptr) :=
  domain_list <== osl_relation_list_filter_m list TYPE_DOMAIN ;;
  nb_domains <== osl_relation_list_count_h domain_list ;;
  if Z.ltb 1 nb_domains then lift Err
  else
    domain <== take_elt_m domain_list ;;
    scattering_list <== osl_relation_list_filter_m list TYPE_SCATTERING ;;
    nb_scattering <== osl_relation_list_count_h scattering_list ;;
    if Z.ltb 1 nb_scattering then lift Err
    else
      scattering <== take_elt_m scattering_list ;;
      access <== osl_relation_list_filter_m list TYPE_ACCESS ;;
      nb_accesses <== osl_relation_list_count_h access ;;
      n <== osl_relation_list_count_h list ;;
      if negb (nb_domains + nb_scattering + nb_accesses =? n)%Z then lift Err
      else osl_relation_list_free_m list ;;== ret (domain, scattering, access).
(** source/statement.c:436-459 osl_statement_pread on a non-NULL file *)
Definition osl_statement_pread_m (f : file) (registry : ptr) (p : Z) : oprog (ptr * file) :=
  stmt <== osl_statement_malloc_f ;;
  '(list, f) <== osl_relation_list_pread_m f p ;;
  '(domain, scattering, access) <== osl_statement_dispatch_m list ;;
  put stmt (BStmt domain scattering access NULL NULL) ;;==
  '(nb_ext, f) <== lift (osl_util_read_int_f f) ;;
  '(extension, f) <== read_extensions_h env (Z.to_nat nb_ext) registry NULL f ;;
  put stmt (BStmt domain scattering access extension NULL) ;;==
  ret (stmt, f).
Fixpoint stmt_free_loop_m (fuel : nat) (statement : ptr) : oprog unit :=
  match fuel with
  | O => lift OutOfFuel
  | S f =>
      if isnull statement then ret tt
      else '(d, s, a, e, next) <== get_stmt_b statement ;;
           osl_relation_free_m d ;;== osl_relation_free_m s ;;== osl_relation_list_free_m a ;;== osl_generic_free_f e ;;==
           free statement ;;==
           stmt_free_loop_m f next
  end.
(** source/statement.c:508-521 osl_statement_free *)
Definition osl_statement_free_m (statement : ptr) : oprog unit := loop (λ n, stmt_free_loop_m n statement).
Fixpoint stmt_clone_loop_m (fuel : nat) (statement : ptr) (n i : Z) (first : bool) (clone previous : ptr) : oprog ptr :=
  match fuel with
  | O => lift OutOfFuel
  | S f =>
      if isnull statement || negb (Z.eqb n (-1) || Z.ltb i n) then ret clone
      else node <== osl_statement_malloc_f ;;
           '(d, s, a, e, next) <== get_stmt_b statement ;;
           d' <== osl_relation_clone_m d ;;
           s' <== osl_relation_clone_m s ;;
           a' <== osl_relation_list_clone_m a ;;
           e' <== osl_generic_clone_f e ;;
           put node (BStmt d' s' a' e' NULL) ;;==
           (if first then ret tt else set_stmt_next_b previous node) ;;==
           stmt_clone_loop_m f next n (i + 1)%Z false (if first then node else clone) node
  end.
(** source/statement.c:566-592 osl_statement_nclone *)
Definition osl_statement_nclone_m (statement : ptr) (n : Z) : oprog ptr := loop (λ k, stmt_clone_loop_m k statement n 0 true NULL NULL).
(** source/statement.c:601-603 osl_statement_clone *)
Definition osl_statement_clone_m (statement : ptr) : oprog ptr := osl_statement_nclone_m statement (-1).

(** ** source/scop.c *)
Fixpoint read_statements_m (n : nat) (statement prev : ptr) (registry : ptr) (p : Z) (f : file) : oprog (ptr * file) :=
  match n with
  | O => ret (statement, f)
  | S k =>
      '(stmt, f) <== osl_statement_pread_m f registry p ;;
      if isnull statement then read_statements_m k stmt stmt registry p f
      else set_stmt_next_b prev stmt ;;== read_statements_m k statement stmt registry p f
  end.
(** One iteration of source/scop.c:410-501 osl_scop_pread after the start tag *)
Definition scop_pread_one_m (registry : ptr) (p : Z) (f : file) : oprog (ptr * file) :=
  scop <== osl_scop_malloc_f ;;
  reg <== osl_interface_clone_f registry ;;
  put scop (BScop 1 NULL NULL NULL NULL reg NULL NULL) ;;==
  '(language, f) <== osl_strings_read_h f ;;
  n <== osl_strings_size_p language ;;
  if (n =? 0)%nat then lift Err
  else
    a <== get_strings language ;; x <== ptr_at a 0 ;; lang <== OSL_strdup_p x ;;
    osl_strings_free_p language ;;==
    put scop (BScop 1 lang NULL NULL NULL reg NULL NULL) ;;==
    '(context, f) <== osl_relation_pread_m f p ;;
    put scop (BScop 1 lang context NULL NULL reg NULL NULL) ;;==
    '(b, f) <== lift (osl_util_read_int_f f) ;;
    '(parameters, f) <== (if Z.ltb 0 b then osl_generic_read_one_h env f reg else ret (NULL, f)) ;;
    put scop (BScop 1 lang context parameters NULL reg NULL NULL) ;;==
    '(nb_statements, f) <== lift (osl_util_read_int_f f) ;;
    '(statement, f) <== read_statements_m (Z.to_nat nb_statements) NULL NULL reg p f ;;
    put scop (BScop 1 lang context parameters statement reg NULL NULL) ;;==
    '(extension, f) <== osl_generic_read_h env f reg ;;
    put scop (BScop 1 lang context parameters statement reg extension NULL) ;;==
    ret (scop, f).
(** The loop of source/scop.c:410-501 osl_scop_pread; every iteration reads at least one character. *)
Fixpoint scops_pread_m (fuel : nat) (registry : ptr) (p : Z) (first : bool) (list current : ptr) (f : file) : oprog (ptr * file) :=
  match fuel with
  | O => lift OutOfFuel
  | S k =>
      '(tmp, f) <== osl_util_read_uptoflag_fh f (tag_of uri_scop) ;;
      if isnull tmp then ret (list, f)
      else free tmp ;;==
           '(scop, f) <== scop_pread_one_m registry p f ;;
           (if first then ret tt else set_scop_next_b current scop) ;;==
           scops_pread_m k registry p false (if first then scop else list) scop f
  end.
(** source/scop.c:410-501 osl_scop_pread on a non-NULL file *)
Definition osl_scop_pread_m (f : file) (registry : ptr) (p : Z) : oprog (ptr * file) :=
  scops_pread_m (S (List.length (ftext f))) registry p true NULL NULL f.
(** source/scop.c:511-518 osl_scop_read *)
Definition osl_scop_read_m (f : file) : oprog (ptr * file) :=
  registry <== osl_interface_get_default_registry_h ;;
  '(scop, f) <== osl_scop_pread_m f registry (osl_util_get_precision env) ;;
  osl_interface_free_f registry ;;==
  ret (scop, f).
Fixpoint scop_free_loop_m (fuel : nat) (scop : ptr) : oprog unit :=
  match fuel with
  | O => lift OutOfFuel
  | S f =>
      if isnull scop then ret tt
      else '(_, l, c, p, s, r, e, tmp) <== get_scop_b scop ;;
           (if isnull l then ret tt else free l) ;;==
           osl_generic_free_f p ;;== osl_relation_free_m c ;;== osl_statement_free_m s ;;==
           osl_interface_free_f r ;;== osl_generic_free_f e ;;==
           free scop ;;==
           scop_free_loop_m f tmp
  end.
(** source/scop.c:553-570 osl_scop_free *)
Definition osl_scop_free_m (scop : ptr) : oprog unit := loop (λ n, scop_free_loop_m n scop).
Fixpoint scop_clone_loop_m (fuel : nat) (scop : ptr) (first : bool) (clone previous : ptr) : oprog ptr :=
  match fuel with
  | O => lift OutOfFuel
  | S f =>
      if isnull scop then ret clone
      else node <== osl_scop_malloc_f ;;
           '(v, l, c, p, s, r, e, next) <== get_scop_b scop ;;
           l' <== (if isnull l then ret NULL else strdup_p l) ;;
           c' <== osl_relation_clone_m c ;;
           p' <== osl_generic_clone_f p ;;
           s' <== osl_statement_clone_m s ;;
           r' <== osl_interface_clone_f r ;;
           e' <== osl_generic_clone_f e ;;
           put node (BScop v l' c' p' s' r' e' NULL) ;;==
           (if first then ret tt else set_scop_next_b previous node) ;;==
           scop_clone_loop_m f next false (if first then node else clone) node
  end.
(** source/scop.c:614-642 osl_scop_clone *)
Definition osl_scop_clone_m (scop : ptr) : oprog ptr := loop (λ k, scop_clone_loop_m k scop true NULL NULL).
End READ.
