(** * HeapObjects: linked structures of the library as programs on the heap

    Functions of relation.c, relation_list.c, interface.c, generic.c,
    statement.c and scop.c that allocate, link or free nodes, pointer by pointer.  The
    contents of one node are values of the value-level model.

    Simplifications: the rows array and the coefficients array of a relation are
    one block ([CMat]); the URI of an interface is part of its node; the data of
    an extension is one block ([CData]) with an opaque content, allocated by the
    clone function of its interface and freed by its free function; int counters
    do not overflow (they count nodes). *)
From stdpp Require Import gmap.
From Verif Require Import Base IntModel VectorModel RelationModel HeapModel.

(** ** Blocks that extension data are made of (PayloadModel.v)

    [None] in an array is an element that malloc left indeterminate: reading it is undefined. *)
(** osl_annotation_text_t, osl_region_text_t (include/osl/extensions/annotation.h:84-88, region.h:88-92) *)
Record textrec := Text { t_count : Z; t_types : ptr; t_lines : ptr }.
(** An osl_int_t: a number in a fixed precision, or the address of a GMP number. *)
Inductive coef := Num (precision : Z) (z : Z) | Mp (p : ptr).
Inductive block :=
| BStr (s : str)                                   (* a NUL-terminated string *)
| BPtrs (l : list (option ptr))                    (* an array of pointers *)
| BInts (l : list (option Z))                      (* an array of int, or of osl_int_t *)
| BVector (size precision : Z) (v : ptr)           (* osl_vector_t *)
| BStrings (string : ptr)                          (* osl_strings_t *)
| BBody (iterators expression : ptr)               (* osl_body_t *)
| BExtbody (nb_access : Z) (start length body : ptr)  (* osl_extbody_t *)
| BArrays (nb_names : Z) (id names : ptr)          (* osl_arrays_t *)
| BHolder (text : ptr)                             (* osl_comment_t, osl_clay_t, osl_textual_t: one char* *)
| BScatnames (names : ptr)                         (* osl_scatnames_t *)
| BCoordinates (name : ptr) (line_start line_end column_start column_end indent : Z)  (* osl_coordinates_t *)
| BScatinfos (nb : Z) (parallel permutable type : ptr)  (* osl_scatinfos_t *)
| BAnnotation (prefix suffix : textrec)            (* osl_annotation_t *)
| BRegion (location : Z) (prefix suffix prelude postlude : textrec) (next : ptr)  (* osl_region_t *)
| BLoop (iter : ptr) (nb_stmts : Z) (stmt_ids private : ptr) (directive : Z) (user next : ptr)  (* osl_loop_t *)
| BUnroll (iter : ptr) (jam : bool) (factor : Z) (next : ptr)  (* osl_pluto_unroll_t *)
| BDependence (ints : list Z) (domain next : ptr)  (* osl_dependence_t; [ints] are its integer fields *)
| BNull                                            (* osl_null_t *)
| BIrregular (nb_control nb_exit : Z) (nb_iterators iterators body : ptr) (nb_statements : Z) (nb_predicates predicates : ptr)  (* osl_irregular_t *)
(* the structures that hold them, FullModel.v *)
| BIface (uri : ptr) (ops : Z) (next : ptr)        (* osl_interface_t; [ops] stands for the function pointers *)
| BGen (data interface next : ptr)                 (* osl_generic_t *)
| BSymbols (type generated nb_dims : Z) (identifier datatype scope extent next : ptr)  (* osl_symbols_t *)
| BStmt (domain scattering access extension next : ptr)  (* osl_statement_t *)
| BScop (version : Z) (language context parameters statement registry extension next : ptr)  (* osl_scop_t, usr left out *)
| BNames (parameters iterators scatt_dims local_dims arrays : ptr)  (* osl_names_t *)
(* the matrices of relations, MatModel.v *)
| BCells (l : list (option coef))                  (* an array of osl_int_t *)
| BRows (l : list (option (ptr * Z)))              (* an array of osl_int_t*: an element of an array *)
| BMpz (limbs : ptr)                               (* an mpz_t that is initialised *)
| BLimbs (z : Z)                                   (* what GMP allocates for a number *)
| BRel (r : relation) (m next : ptr).              (* osl_relation_t; [rm r] is not used *)

(** Contents of an allocated object. *)
Inductive obj :=
| CRel (r : relation) (m next : ptr)          (* osl_relation_t; [rm r] is in the block [m] *)
| CMat (m : list (list Z))                    (* the matrix of a relation *)
| CList (elt next : ptr)                      (* osl_relation_list_t *)
| CIface (uri : option str) (ops : Z) (next : ptr)  (* osl_interface_t; [ops] stands for the function pointers *)
| CGen (data interface next : ptr)            (* osl_generic_t *)
| CData (d : Z)                               (* data of an extension *)
| CStmt (domain scattering access extension next : ptr)  (* osl_statement_t *)
| CScop (version : Z) (language : option str)            (* osl_scop_t; the language string is part of the node, *)
    (context parameters statement registry extension next : ptr)  (* the usr field is left out *)
| CBlock (b : block).                         (* part of the data of an extension, PayloadModel.v *)
Notation oprog := (prog obj).

Definition isnull (p : ptr) : bool := Z.eqb p NULL.

(** Field accesses. *)
Definition get_rel (p : ptr) : oprog (relation * ptr * ptr) :=
  c <== load p ;; match c with CRel r m n => ret (r, m, n) | _ => lift UB end.
Definition get_mat (p : ptr) : oprog (list (list Z)) :=
  c <== load p ;; match c with CMat m => ret m | _ => lift UB end.
Definition get_list (p : ptr) : oprog (ptr * ptr) :=
  c <== load p ;; match c with CList e n => ret (e, n) | _ => lift UB end.
Definition get_iface (p : ptr) : oprog (option str * Z * ptr) :=
  c <== load p ;; match c with CIface u o n => ret (u, o, n) | _ => lift UB end.
Definition get_gen (p : ptr) : oprog (ptr * ptr * ptr) :=
  c <== load p ;; match c with CGen d i n => ret (d, i, n) | _ => lift UB end.
Definition get_data (p : ptr) : oprog Z :=
  c <== load p ;; match c with CData d => ret d | _ => lift UB end.
Definition get_stmt (p : ptr) : oprog (ptr * ptr * ptr * ptr * ptr) :=
  c <== load p ;; match c with CStmt d s a e n => ret (d, s, a, e, n) | _ => lift UB end.
Record scop_node := SNode { sn_version : Z; sn_language : option str; sn_context : ptr; sn_parameters : ptr;
  sn_statement : ptr; sn_registry : ptr; sn_extension : ptr; sn_next : ptr }.
Definition get_scop (p : ptr) : oprog scop_node :=
  c <== load p ;; match c with CScop v l c p s r e n => ret (SNode v l c p s r e n) | _ => lift UB end.

Section OBJECTS.
Context {cfg : config} {al : Allocator obj}.

(** ** Relations *)
Definition set_rel_next (p q : ptr) : oprog unit :=
  '(r, m, _) <== get_rel p ;; store p (CRel r m q).
(** The fields of a node, matrix excepted. *)
Definition header (r : relation) : relation :=
  mkrel (rtype r) (rprec r) (nrows r) (ncols r) (nout r) (nin r) (nloc r) (npar r) [].
(** The contents of a part. *)
Definition read_part (p : ptr) : oprog (relation * ptr) :=
  '(r, m, n) <== get_rel p ;;
  mm <== (if isnull m then ret [] else get_mat m) ;;
  ret (with_m r (nrows r) (ncols r) mm, n).
(** osl_relation_pmalloc (source/relation.c:1589-1630) followed by the
    assignments of the contents: the matrix block exists unless the relation has
    no row or no column. *)
Definition new_node (r : relation) : oprog ptr :=
  m <== (if (nrows r =? 0) || (ncols r =? 0) then ret NULL else alloc (CMat (rm r))) ;;
  alloc (CRel (header r) m NULL).

(** source/relation.c:1654-1670 osl_relation_free_inside *)
Definition osl_relation_free_inside_p (p : ptr) : oprog unit :=
  if isnull p then ret tt
  else '(r, m, _) <== get_rel p ;;
       if isnull m then ret tt else free m.
Fixpoint relation_free_loop (fuel : nat) (p : ptr) : oprog unit :=
  match fuel with
  | O => lift OutOfFuel
  | S f =>
      if isnull p then ret tt
      else '(_, _, tmp) <== get_rel p ;;
           osl_relation_free_inside_p p ;;==
           free p ;;==
           relation_free_loop f tmp
  end.
(** source/relation.c:1678-1687 osl_relation_free *)
Definition osl_relation_free_p (p : ptr) : oprog unit := loop (fun n => relation_free_loop n p).

Fixpoint nb_components_loop (fuel : nat) (p : ptr) : oprog Z :=
  match fuel with
  | O => lift OutOfFuel
  | S f =>
      if isnull p then ret 0
      else '(_, _, n) <== get_rel p ;; k <== nb_components_loop f n ;; ret (k + 1)
  end.
(** source/relation.c:766-775 osl_relation_nb_components *)
Definition osl_relation_nb_components_p (p : ptr) : oprog Z := loop (fun n => nb_components_loop n p).

Fixpoint relation_nclone_loop (k : nat) (relation : ptr) (first : bool) (clone previous : ptr) : oprog ptr :=
  match k with
  | O => ret clone
  | S k' =>
      '(r, next) <== read_part relation ;;
      r' <== lift (clone_part r (nrows r)) ;;
      node <== new_node r' ;;
      if first then relation_nclone_loop k' next false node node
      else set_rel_next previous node ;;==
           relation_nclone_loop k' next false clone node
  end.
(** source/relation.c:1703-1739 osl_relation_nclone *)
Definition osl_relation_nclone_p (p : ptr) (n : Z) : oprog ptr :=
  nb_components <== osl_relation_nb_components_p p ;;
  let nb_parts := if n =? -1 then nb_components else n in
  if nb_components <? nb_parts then lift Err
  else relation_nclone_loop (Z.to_nat nb_parts) p true NULL NULL.
(** source/relation.c:1802-1807 osl_relation_clone *)
Definition osl_relation_clone_p (p : ptr) : oprog ptr :=
  if isnull p then ret NULL else osl_relation_nclone_p p (-1).

Fixpoint relation_add_loop (fuel : nat) (p r2 : ptr) : oprog unit :=
  match fuel with
  | O => lift OutOfFuel
  | S f =>
      '(_, _, n) <== get_rel p ;;
      if isnull n then set_rel_next p r2 else relation_add_loop f n r2
  end.
(** source/relation.c:1818-1823 osl_relation_add; the result is the new value of [*r1].  The address
    [r1] is that of the caller's variable, then that of a [next] field. *)
Definition osl_relation_add_p (r1 r2 : ptr) : oprog ptr :=
  if isnull r1 then ret r2 else loop (fun n => relation_add_loop n r1 r2) ;;== ret r1.
(** source/relation.c:1834-1845 osl_relation_union *)
Definition osl_relation_union_p (r1 r2 : ptr) : oprog ptr :=
  if isnull r1 && isnull r2 then ret NULL
  else copy1 <== osl_relation_clone_p r1 ;;
       copy2 <== osl_relation_clone_p r2 ;;
       osl_relation_add_p copy1 copy2.

Fixpoint remove_part_loop (fuel : nat) (relation previous part : ptr) : oprog unit :=
  match fuel with
  | O => lift OutOfFuel
  | S f =>
      if isnull relation then ret tt
      else '(r, m, next) <== get_rel relation ;;
           if Z.eqb relation part then
             set_rel_next previous next ;;==
             set_rel_next relation NULL ;;==
             osl_relation_free_p relation
           else remove_part_loop f next relation part
  end.
(** source/relation.c:2951-2975 osl_relation_remove_part (the address of the list is not NULL); the
    result is the new value of [*relation_list]. *)
Definition osl_relation_remove_part_p (list part : ptr) : oprog ptr :=
  if isnull list || isnull part then ret list
  else if Z.eqb list part then '(_, _, next) <== get_rel list ;; ret next
  else '(_, _, next) <== get_rel list ;;
       loop (fun n => remove_part_loop n next list part) ;;== ret list.

(** ** Relation lists *)
Definition set_list_next (p q : ptr) : oprog unit :=
  '(e, _) <== get_list p ;; store p (CList e q).
(** source/relation_list.c:378-386 osl_relation_list_malloc *)
Definition osl_relation_list_malloc_p : oprog ptr := alloc (CList NULL NULL).

Fixpoint list_free_loop (fuel : nat) (list : ptr) : oprog unit :=
  match fuel with
  | O => lift OutOfFuel
  | S f =>
      if isnull list then ret tt
      else '(elt, _) <== get_list list ;;
           (if isnull elt then ret tt else osl_relation_free_p elt) ;;==
           '(_, tmp) <== get_list list ;;
           free list ;;==
           list_free_loop f tmp
  end.
(** source/relation_list.c:394-407 osl_relation_list_free *)
Definition osl_relation_list_free_p (list : ptr) : oprog unit :=
  if isnull list then ret tt else loop (fun n => list_free_loop n list).

(** source/relation_list.c:421-429 osl_relation_list_node *)
Definition osl_relation_list_node_p (r : ptr) : oprog ptr :=
  if isnull r then ret NULL
  else new <== osl_relation_list_malloc_p ;;
       c <== osl_relation_clone_p r ;;
       '(_, n) <== get_list new ;;
       store new (CList c n) ;;==
       ret new.

Fixpoint list_clone_loop (fuel : nat) (list : ptr) (first : bool) (clone previous : ptr) : oprog ptr :=
  match fuel with
  | O => lift OutOfFuel
  | S f =>
      if isnull list then ret clone
      else node <== osl_relation_list_malloc_p ;;
           '(elt, _) <== get_list list ;;
           c <== osl_relation_clone_p elt ;;
           '(_, n) <== get_list node ;;
           store node (CList c n) ;;==
           '(_, next) <== get_list list ;;
           if first then list_clone_loop f next false node node
           else set_list_next previous node ;;==
                list_clone_loop f next false clone node
  end.
(** source/relation_list.c:438-459 osl_relation_list_clone *)
Definition osl_relation_list_clone_p (list : ptr) : oprog ptr :=
  loop (fun n => list_clone_loop n list true NULL NULL).

Fixpoint list_end_loop (fuel : nat) (p l2 : ptr) : oprog unit :=
  match fuel with
  | O => lift OutOfFuel
  | S f =>
      '(_, n) <== get_list p ;;
      if isnull n then set_list_next p l2 else list_end_loop f n l2
  end.
(** source/relation_list.c:498-504 osl_relation_list_add; the result is the new value of [*l1]. *)
Definition osl_relation_list_add_p (l1 l2 : ptr) : oprog ptr :=
  if isnull l1 then ret l2 else loop (fun n => list_end_loop n l1 l2) ;;== ret l1.

Fixpoint list_last_loop (fuel : nat) (p : ptr) : oprog ptr :=
  match fuel with
  | O => lift OutOfFuel
  | S f => '(_, n) <== get_list p ;; if isnull n then ret p else list_last_loop f n
  end.
(** source/relation_list.c:470-487 osl_relation_list_concat *)
Definition osl_relation_list_concat_p (l1 l2 : ptr) : oprog ptr :=
  if isnull l1 then osl_relation_list_clone_p l2
  else if isnull l2 then osl_relation_list_clone_p l1
  else new <== osl_relation_list_clone_p l1 ;;
       last <== loop (fun n => list_last_loop n new) ;;
       c <== osl_relation_list_clone_p l2 ;;
       set_list_next last c ;;==
       ret new.

(** source/relation_list.c:514-520 osl_relation_list_push; the result is the new value of [*head]. *)
Definition osl_relation_list_push_p (head node : ptr) : oprog ptr :=
  if isnull node then ret head else set_list_next node head ;;== ret node.
(** source/relation_list.c:531-541 osl_relation_list_pop: the popped node and the new value of [*head]. *)
Definition osl_relation_list_pop_p (head : ptr) : oprog (ptr * ptr) :=
  if isnull head then ret (NULL, head)
  else '(_, n) <== get_list head ;;
       set_list_next head NULL ;;==
       ret (head, n).
(** source/relation_list.c:551-555 osl_relation_list_dup *)
Definition osl_relation_list_dup_p (head : ptr) : oprog ptr :=
  '(top, head) <== osl_relation_list_pop_p head ;;
  c <== osl_relation_list_clone_p top ;;
  head <== osl_relation_list_push_p head c ;;
  osl_relation_list_push_p head top.
(** source/relation_list.c:566-569 osl_relation_list_drop *)
Definition osl_relation_list_drop_p (head : ptr) : oprog ptr :=
  '(top, head) <== osl_relation_list_pop_p head ;;
  osl_relation_list_free_p top ;;==
  ret head.
Fixpoint list_destroy_loop (fuel : nat) (head : ptr) : oprog ptr :=
  match fuel with
  | O => lift OutOfFuel
  | S f => if isnull head then ret head
           else head <== osl_relation_list_drop_p head ;; list_destroy_loop f head
  end.
(** source/relation_list.c:579-582 osl_relation_list_destroy *)
Definition osl_relation_list_destroy_p (head : ptr) : oprog ptr :=
  loop (fun n => list_destroy_loop n head).

(** The test of osl_relation_list_filter on the element [elt]. *)
Definition filter_test (elt : ptr) (type : Z) : oprog bool :=
  if isnull elt then ret false
  else '(r, _, _) <== get_rel elt ;;
       ret (((type =? TYPE_ACCESS) && osl_relation_is_access r)
            || (negb (type =? TYPE_ACCESS) && (type =? rtype r))).
Fixpoint list_filter_loop (fuel : nat) (type : Z) (copy : ptr) (first : bool) (filtered previous : ptr) : oprog ptr :=
  match fuel with
  | O => lift OutOfFuel
  | S f =>
      if isnull copy then ret filtered
      else '(elt, next) <== get_list copy ;;
           keep <== filter_test elt type ;;
           if keep : bool then
             list_filter_loop f type next false (if first then copy else filtered) copy
           else
             (if first then ret tt else set_list_next previous next) ;;==
             set_list_next copy NULL ;;==
             osl_relation_list_free_p copy ;;==
             list_filter_loop f type next first filtered previous
  end.
(** source/relation_list.c:669-699 osl_relation_list_filter *)
Definition osl_relation_list_filter_p (list : ptr) (type : Z) : oprog ptr :=
  copy <== osl_relation_list_clone_p list ;;
  loop (fun n => list_filter_loop n type copy true NULL NULL).

Fixpoint list_count_loop (fuel : nat) (list : ptr) : oprog Z :=
  match fuel with
  | O => lift OutOfFuel
  | S f =>
      if isnull list then ret 0
      else '(elt, next) <== get_list list ;;
           k <== list_count_loop f next ;;
           ret (if isnull elt then k else k + 1)
  end.
(** source/relation_list.c:708-718 osl_relation_list_count *)
Definition osl_relation_list_count_p (list : ptr) : oprog Z := loop (fun n => list_count_loop n list).

(** The assignment of osl_relation_list_set_type to one element. *)
Definition set_elt_type (elt : ptr) (type : Z) : oprog unit :=
  if isnull elt then ret tt
  else '(r, m, n) <== get_rel elt ;; store elt (CRel (with_type r type) m n).
Fixpoint list_set_type_loop (fuel : nat) (list : ptr) (type : Z) : oprog unit :=
  match fuel with
  | O => lift OutOfFuel
  | S f =>
      if isnull list then ret tt
      else '(elt, next) <== get_list list ;;
           set_elt_type elt type ;;==
           list_set_type_loop f next type
  end.
(** source/relation_list.c:651-658 osl_relation_list_set_type *)
Definition osl_relation_list_set_type_p (list : ptr) (type : Z) : oprog unit :=
  loop (fun n => list_set_type_loop n list type).

(** ** Interfaces *)
Definition set_iface_next (p q : ptr) : oprog unit :=
  '(u, o, _) <== get_iface p ;; store p (CIface u o q).
Fixpoint interface_lookup_loop (fuel : nat) (list : ptr) (URI : str) : oprog ptr :=
  match fuel with
  | O => lift OutOfFuel
  | S f =>
      if isnull list then ret NULL
      else '(u, _, next) <== get_iface list ;;
           if match u with Some s => str_eqb s URI | None => false end then ret list
           else interface_lookup_loop f next URI
  end.
(** source/interface.c:345-358 osl_interface_lookup *)
Definition osl_interface_lookup_p (list : ptr) (URI : option str) : oprog ptr :=
  match URI with
  | None => ret NULL
  | Some u => loop (fun n => interface_lookup_loop n list u)
  end.
(** The checks of osl_interface_add. *)
Fixpoint interface_check_loop (fuel : nat) (list check : ptr) : oprog unit :=
  match fuel with
  | O => lift OutOfFuel
  | S f =>
      if isnull check then ret tt
      else '(u, _, _) <== get_iface check ;;
           match u with
           | None => lift Err
           | Some _ =>
               found <== osl_interface_lookup_p list u ;;
               if isnull found then '(_, _, next) <== get_iface check ;; interface_check_loop f list next
               else lift Err
           end
  end.
Fixpoint interface_end_loop (fuel : nat) (tmp interface : ptr) : oprog unit :=
  match fuel with
  | O => lift OutOfFuel
  | S f => '(_, _, n) <== get_iface tmp ;;
           if isnull n then set_iface_next tmp interface else interface_end_loop f n interface
  end.
(** source/interface.c:173-196 osl_interface_add; the result is the new value of [*list]. *)
Definition osl_interface_add_p (list interface : ptr) : oprog ptr :=
  if isnull interface then ret list
  else loop (fun n => interface_check_loop n list interface) ;;==
       if isnull list then ret interface
       else loop (fun n => interface_end_loop n list interface) ;;== ret list.
Fixpoint interface_free_loop (fuel : nat) (interface : ptr) : oprog unit :=
  match fuel with
  | O => lift OutOfFuel
  | S f =>
      if isnull interface then ret tt
      else '(_, _, tmp) <== get_iface interface ;;
           free interface ;;==
           interface_free_loop f tmp
  end.
(** source/interface.c:229-241 osl_interface_free *)
Definition osl_interface_free_p (interface : ptr) : oprog unit := loop (fun n => interface_free_loop n interface).
Fixpoint interface_number_loop (fuel : nat) (interface : ptr) : oprog Z :=
  match fuel with
  | O => lift OutOfFuel
  | S f => if isnull interface then ret 0
           else '(_, _, n) <== get_iface interface ;; k <== interface_number_loop f n ;; ret (k + 1)
  end.
(** source/interface.c:254-262 osl_interface_number *)
Definition osl_interface_number_p (interface : ptr) : oprog Z := loop (fun n => interface_number_loop n interface).
Fixpoint interface_nclone_loop (fuel : nat) (interface : ptr) (n i : Z) (clone : ptr) : oprog ptr :=
  match fuel with
  | O => lift OutOfFuel
  | S f =>
      if negb (isnull interface) && ((n =? -1) || (i <? n)) then
        '(u, o, _) <== get_iface interface ;;
        new <== alloc (CIface u o NULL) ;;
        clone <== osl_interface_add_p clone new ;;
        '(_, _, next) <== get_iface interface ;;
        interface_nclone_loop f next n (i + 1) clone
      else ret clone
  end.
(** source/interface.c:272-293 osl_interface_nclone; osl_interface_malloc (source/interface.c:206-221) and the assignments are one allocation *)
Definition osl_interface_nclone_p (interface : ptr) (n : Z) : oprog ptr :=
  loop (fun fuel => interface_nclone_loop fuel interface n 0 NULL).
(** source/interface.c:302-304 osl_interface_clone *)
Definition osl_interface_clone_p (interface : ptr) : oprog ptr := osl_interface_nclone_p interface (-1).
(** source/interface.c:314-334 osl_interface_equal: strcmp on a NULL URI is undefined. *)
Definition osl_interface_equal_p (interface1 interface2 : ptr) : oprog bool :=
  if Z.eqb interface1 interface2 then ret true
  else if isnull interface1 || isnull interface2 then ret false
  else '(u1, o1, _) <== get_iface interface1 ;;
       '(u2, o2, _) <== get_iface interface2 ;;
       match u1, u2 with
       | Some s1, Some s2 => ret (str_eqb s1 s2 && Z.eqb o1 o2)
       | _, _ => lift UB
       end.

(** The interfaces of the library, as registered: URI macro (include/osl/strings.h:73,
    body.h:74, relation.h:75, and the headers in extensions/) and a number standing for the functions. *)
Definition default_interfaces : list (str * Z) :=
  [ (lit "strings", 1); (lit "body", 2); (lit "relation", 3);
    (lit "textual", 4); (lit "comment", 5); (lit "null", 6); (lit "scatinfos", 7); (lit "scatnames", 8);
    (lit "arrays", 9); (lit "coordinates", 10); (lit "clay", 11); (lit "dependence", 12); (lit "symbols", 13);
    (lit "extbody", 14); (lit "loop", 15); (lit "pluto_unroll", 16); (lit "region", 17); (lit "annotation", 18) ].
Fixpoint add_interfaces (registry : ptr) (l : list (str * Z)) : oprog ptr :=
  match l with
  | [] => ret registry
  | (u, o) :: l' =>
      new <== alloc (CIface (Some u) o NULL) ;;
      registry <== osl_interface_add_p registry new ;;
      add_interfaces registry l'
  end.
(** source/interface.c:366-393 osl_interface_get_default_registry; each osl_X_interface() is one allocation
    (e.g. osl_strings_interface, source/strings.c:433-446) *)
Definition osl_interface_get_default_registry_p : oprog ptr := add_interfaces NULL default_interfaces.

(** ** Extensions (generics)

    The clone, free and equal functions of the interface are taken to be right on
    the data they are given: [clone] allocates a block with the same content
    (NULL gives NULL), [free] releases it, [equal] compares contents. *)
Definition set_gen_next (p q : ptr) : oprog unit :=
  '(d, i, _) <== get_gen p ;; store p (CGen d i q).
Definition data_clone (interface data : ptr) : oprog ptr :=
  '(_, _, _) <== get_iface interface ;;
  if isnull data then ret NULL else d <== get_data data ;; alloc (CData d).
Definition data_free (interface data : ptr) : oprog unit :=
  '(_, _, _) <== get_iface interface ;; free data.
(** source/generic.c:636-642 osl_generic_has_URI *)
Definition osl_generic_has_URI_p (x : ptr) (URI : str) : oprog bool :=
  if isnull x then ret false
  else '(_, i, _) <== get_gen x ;;
       if isnull i then ret false
       else '(u, _, _) <== get_iface i ;;
            ret (match u with Some s => str_eqb s URI | None => false end).
Fixpoint generic_lookup_loop (fuel : nat) (x : ptr) (URI : str) : oprog ptr :=
  match fuel with
  | O => lift OutOfFuel
  | S f =>
      if isnull x then ret NULL
      else b <== osl_generic_has_URI_p x URI ;;
           '(d, _, next) <== get_gen x ;;
           if b : bool then ret d else generic_lookup_loop f next URI
  end.
(** source/generic.c:653-662 osl_generic_lookup: the data, or NULL. *)
Definition osl_generic_lookup_p (x : ptr) (URI : str) : oprog ptr := loop (fun n => generic_lookup_loop n x URI).
(** The checks of osl_generic_add. *)
Fixpoint generic_check_loop (fuel : nat) (list check : ptr) : oprog unit :=
  match fuel with
  | O => lift OutOfFuel
  | S f =>
      if isnull check then ret tt
      else '(_, i, next) <== get_gen check ;;
           if isnull i then lift Err
           else '(u, _, _) <== get_iface i ;;
                match u with
                | None => lift Err
                | Some s =>
                    found <== osl_generic_lookup_p list s ;;
                    if isnull found then generic_check_loop f list next else lift Err
                end
  end.
Fixpoint generic_end_loop (fuel : nat) (tmp generic : ptr) : oprog unit :=
  match fuel with
  | O => lift OutOfFuel
  | S f => '(_, _, n) <== get_gen tmp ;;
           if isnull n then set_gen_next tmp generic else generic_end_loop f n generic
  end.
(** source/generic.c:363-387 osl_generic_add; the result is the new value of [*list]. *)
Definition osl_generic_add_p (list generic : ptr) : oprog ptr :=
  if isnull generic then ret list
  else loop (fun n => generic_check_loop n list generic) ;;==
       if isnull list then ret generic
       else loop (fun n => generic_end_loop n list generic) ;;== ret list.
Fixpoint generic_free_loop (fuel : nat) (generic : ptr) : oprog unit :=
  match fuel with
  | O => lift OutOfFuel
  | S f =>
      if isnull generic then ret tt
      else '(d, i, next) <== get_gen generic ;;
           (if negb (isnull i) then data_free i d ;;== osl_interface_free_p i
            else if negb (isnull d) then free d else ret tt) ;;==
           free generic ;;==
           generic_free_loop f next
  end.
(** source/generic.c:468-485 osl_generic_free *)
Definition osl_generic_free_p (generic : ptr) : oprog unit := loop (fun n => generic_free_loop n generic).
(** The search of osl_generic_remove_node: the last node [tmp] such that
    [tmp->next] is [generic] or NULL. *)
Fixpoint generic_find_loop (fuel : nat) (tmp generic : ptr) : oprog ptr :=
  match fuel with
  | O => lift OutOfFuel
  | S f => '(_, _, n) <== get_gen tmp ;;
           if Z.eqb n generic || isnull n then ret tmp else generic_find_loop f n generic
  end.
(** source/generic.c:396-422 osl_generic_remove_node; the result is the new value of [*list]. *)
Definition osl_generic_remove_node_p (list generic : ptr) : oprog ptr :=
  if isnull generic || isnull list then ret list
  else if Z.eqb list generic then
    '(_, _, next) <== get_gen generic ;;
    set_gen_next generic NULL ;;==
    osl_generic_free_p generic ;;==
    ret next
  else
    tmp <== loop (fun n => generic_find_loop n list generic) ;;
    '(_, _, n) <== get_gen tmp ;;
    if Z.eqb n generic then
      '(_, _, next) <== get_gen generic ;;
      set_gen_next tmp next ;;==
      set_gen_next generic NULL ;;==
      osl_generic_free_p generic ;;==
      ret list
    else ret list.
Fixpoint generic_find_URI_loop (fuel : nat) (tmp : ptr) (URI : str) : oprog ptr :=
  match fuel with
  | O => lift OutOfFuel
  | S f => if isnull tmp then ret NULL
           else b <== osl_generic_has_URI_p tmp URI ;;
                if b : bool then ret tmp
                else '(_, _, n) <== get_gen tmp ;; generic_find_URI_loop f n URI
  end.
(** source/generic.c:430-442 osl_generic_remove; the result is the new value of [*list]. *)
Definition osl_generic_remove_p (list : ptr) (URI : str) : oprog ptr :=
  tmp <== loop (fun n => generic_find_URI_loop n list URI) ;;
  if isnull tmp then ret list else osl_generic_remove_node_p list tmp.
Fixpoint generic_count_loop (fuel : nat) (x : ptr) : oprog Z :=
  match fuel with
  | O => lift OutOfFuel
  | S f => if isnull x then ret 0
           else '(_, _, n) <== get_gen x ;; k <== generic_count_loop f n ;; ret (k + 1)
  end.
(** source/generic.c:561-570 osl_generic_count (osl_generic_number, source/generic.c:493-501, is the same code) *)
Definition osl_generic_count_p (x : ptr) : oprog Z := loop (fun n => generic_count_loop n x).
Fixpoint generic_nclone_loop (fuel : nat) (generic : ptr) (n : Z) (clone : ptr) : oprog ptr :=
  match fuel with
  | O => lift OutOfFuel
  | S f =>
      if negb (isnull generic) && (0 <? n) then
        '(d, i, _) <== get_gen generic ;;
        clone <== (if negb (isnull i) then
                     x <== data_clone i d ;;
                     interface <== osl_interface_clone_p i ;;
                     new <== alloc (CGen x interface NULL) ;;
                     osl_generic_add_p clone new
                   else ret clone) ;;
        '(_, _, next) <== get_gen generic ;;
        generic_nclone_loop f next (n - 1) clone
      else ret clone
  end.
(** source/generic.c:527-552 osl_generic_nclone *)
Definition osl_generic_nclone_p (generic : ptr) (n : Z) : oprog ptr :=
  n <== (if n <? 0 then osl_generic_count_p generic else ret n) ;;
  loop (fun fuel => generic_nclone_loop fuel generic n NULL).
(** source/generic.c:515-517 osl_generic_clone *)
Definition osl_generic_clone_p (generic : ptr) : oprog ptr := osl_generic_nclone_p generic (-1).
(** source/generic.c:672-683 osl_generic_shell (the warning is not modelled) *)
Definition osl_generic_shell_p (data interface : ptr) : oprog ptr := alloc (CGen data interface NULL).

(** ** Statements *)
Definition set_stmt_next (p q : ptr) : oprog unit :=
  '(d, s, a, e, _) <== get_stmt p ;; store p (CStmt d s a e q).
Fixpoint statement_free_loop (fuel : nat) (statement : ptr) : oprog unit :=
  match fuel with
  | O => lift OutOfFuel
  | S f =>
      if isnull statement then ret tt
      else '(d, s, a, e, next) <== get_stmt statement ;;
           osl_relation_free_p d ;;==
           osl_relation_free_p s ;;==
           osl_relation_list_free_p a ;;==
           osl_generic_free_p e ;;==
           free statement ;;==
           statement_free_loop f next
  end.
(** source/statement.c:508-521 osl_statement_free *)
Definition osl_statement_free_p (statement : ptr) : oprog unit := loop (fun n => statement_free_loop n statement).
Fixpoint statement_add_loop (fuel : nat) (p statement : ptr) : oprog unit :=
  match fuel with
  | O => lift OutOfFuel
  | S f => '(_, _, _, _, n) <== get_stmt p ;;
           if isnull n then set_stmt_next p statement else statement_add_loop f n statement
  end.
(** source/statement.c:534-539 osl_statement_add; the result is the new value of [*location]. *)
Definition osl_statement_add_p (location statement : ptr) : oprog ptr :=
  if isnull location then ret statement
  else loop (fun n => statement_add_loop n location statement) ;;== ret location.
Fixpoint statement_number_loop (fuel : nat) (statement : ptr) : oprog Z :=
  match fuel with
  | O => lift OutOfFuel
  | S f => if isnull statement then ret 0
           else '(_, _, _, _, n) <== get_stmt statement ;; k <== statement_number_loop f n ;; ret (k + 1)
  end.
(** source/statement.c:548-556 osl_statement_number *)
Definition osl_statement_number_p (statement : ptr) : oprog Z := loop (fun n => statement_number_loop n statement).
(** A new statement (osl_statement_malloc, source/statement.c:489-501) with the given copies: the body of
    osl_statement_nclone and of osl_statement_remove_unions, [cl] being the copy
    function of the domain and the scattering. *)
Definition new_statement (cl : ptr -> oprog ptr) (d s a e : ptr) : oprog ptr :=
  node <== alloc (CStmt NULL NULL NULL NULL NULL) ;;
  d' <== cl d ;;
  s' <== cl s ;;
  a' <== osl_relation_list_clone_p a ;;
  e' <== osl_generic_clone_p e ;;
  store node (CStmt d' s' a' e' NULL) ;;==
  ret node.
Fixpoint statement_nclone_loop (fuel : nat) (statement : ptr) (n i : Z) (first : bool) (clone previous : ptr) : oprog ptr :=
  match fuel with
  | O => lift OutOfFuel
  | S f =>
      if negb (isnull statement) && ((n =? -1) || (i <? n)) then
        '(d, s, a, e, _) <== get_stmt statement ;;
        node <== new_statement osl_relation_clone_p d s a e ;;
        '(_, _, _, _, next) <== get_stmt statement ;;
        if first then statement_nclone_loop f next n (i + 1) false node node
        else set_stmt_next previous node ;;==
             statement_nclone_loop f next n (i + 1) false clone node
      else ret clone
  end.
(** source/statement.c:566-592 osl_statement_nclone *)
Definition osl_statement_nclone_p (statement : ptr) (n : Z) : oprog ptr :=
  loop (fun fuel => statement_nclone_loop fuel statement n 0 true NULL NULL).
(** source/statement.c:601-603 osl_statement_clone *)
Definition osl_statement_clone_p (statement : ptr) : oprog ptr := osl_statement_nclone_p statement (-1).
(** source/statement.c:606-611 osl_relation_clone_one_safe *)
Definition osl_relation_clone_one_safe_p (relation : ptr) : oprog ptr :=
  if isnull relation then ret NULL else osl_relation_nclone_p relation 1.
(** The inner loop of osl_statement_remove_unions, on the parts of the scattering. *)
Fixpoint remove_unions_scat_loop (fuel : nat) (domain scattering a e result statement_ptr : ptr) : oprog (ptr * ptr) :=
  match fuel with
  | O => lift OutOfFuel
  | S f =>
      new <== new_statement osl_relation_clone_one_safe_p domain scattering a e ;;
      (if isnull result then ret tt else set_stmt_next statement_ptr new) ;;==
      let result := if isnull result then new else result in
      if isnull scattering then ret (result, new)
      else '(_, _, next) <== get_rel scattering ;;
           if isnull next then ret (result, new)
           else remove_unions_scat_loop f domain next a e result new
  end.
(** The outer loop, on the parts of the domain. *)
Fixpoint remove_unions_dom_loop (fuel : nat) (domain scattering a e result statement_ptr : ptr) : oprog ptr :=
  match fuel with
  | O => lift OutOfFuel
  | S f =>
      '(result, statement_ptr) <== loop (fun n => remove_unions_scat_loop n domain scattering a e result statement_ptr) ;;
      if isnull domain then ret result
      else '(_, _, next) <== get_rel domain ;;
           if isnull next then ret result
           else remove_unions_dom_loop f next scattering a e result statement_ptr
  end.
(** source/statement.c:624-659 osl_statement_remove_unions *)
Definition osl_statement_remove_unions_p (statement : ptr) : oprog ptr :=
  if isnull statement then ret NULL
  else '(d, s, a, e, _) <== get_stmt statement ;;
       loop (fun n => remove_unions_dom_loop n d s a e NULL NULL).

(** ** Scops *)
Definition set_scop_next (p q : ptr) : oprog unit :=
  x <== get_scop p ;;
  store p (CScop (sn_version x) (sn_language x) (sn_context x) (sn_parameters x) (sn_statement x) (sn_registry x) (sn_extension x) q).
Fixpoint scop_free_loop (fuel : nat) (scop : ptr) : oprog unit :=
  match fuel with
  | O => lift OutOfFuel
  | S f =>
      if isnull scop then ret tt
      else x <== get_scop scop ;;
           osl_generic_free_p (sn_parameters x) ;;==
           osl_relation_free_p (sn_context x) ;;==
           osl_statement_free_p (sn_statement x) ;;==
           osl_interface_free_p (sn_registry x) ;;==
           osl_generic_free_p (sn_extension x) ;;==
           y <== get_scop scop ;;
           free scop ;;==
           scop_free_loop f (sn_next y)
  end.
(** source/scop.c:553-569 osl_scop_free *)
Definition osl_scop_free_p (scop : ptr) : oprog unit := loop (fun n => scop_free_loop n scop).
Fixpoint scop_add_loop (fuel : nat) (p scop : ptr) : oprog unit :=
  match fuel with
  | O => lift OutOfFuel
  | S f => x <== get_scop p ;;
           if isnull (sn_next x) then set_scop_next p scop else scop_add_loop f (sn_next x) scop
  end.
(** source/scop.c:582-587 osl_scop_add; the result is the new value of [*location]. *)
Definition osl_scop_add_p (location scop : ptr) : oprog ptr :=
  if isnull location then ret scop
  else loop (fun n => scop_add_loop n location scop) ;;== ret location.
Fixpoint scop_clone_loop (fuel : nat) (scop : ptr) (first : bool) (clone previous : ptr) : oprog ptr :=
  match fuel with
  | O => lift OutOfFuel
  | S f =>
      if isnull scop then ret clone
      else x <== get_scop scop ;;
           node <== alloc (CScop 1 None NULL NULL NULL NULL NULL NULL) ;;
           c <== osl_relation_clone_p (sn_context x) ;;
           p <== osl_generic_clone_p (sn_parameters x) ;;
           s <== osl_statement_clone_p (sn_statement x) ;;
           r <== osl_interface_clone_p (sn_registry x) ;;
           e <== osl_generic_clone_p (sn_extension x) ;;
           store node (CScop (sn_version x) (sn_language x) c p s r e NULL) ;;==
           y <== get_scop scop ;;
           if first then scop_clone_loop f (sn_next y) false node node
           else set_scop_next previous node ;;==
                scop_clone_loop f (sn_next y) false clone node
  end.
(** source/scop.c:614-642 osl_scop_clone (osl_scop_malloc, source/scop.c:529-544, is an allocation; the assignments are one) *)
Definition osl_scop_clone_p (scop : ptr) : oprog ptr := loop (fun n => scop_clone_loop n scop true NULL NULL).
(** The loop of osl_scop_remove_unions on the statements of a scop: the result is
    the statement list of the new scop. *)
Fixpoint scop_unions_loop (fuel : nat) (statement scop_statement_ptr head : ptr) : oprog ptr :=
  match fuel with
  | O => lift OutOfFuel
  | S f =>
      if isnull statement then ret head
      else new <== osl_statement_remove_unions_p statement ;;
           '(_, _, _, _, next) <== get_stmt statement ;;
           if isnull scop_statement_ptr then scop_unions_loop f next new new
           else set_stmt_next scop_statement_ptr new ;;==
                '(_, _, _, _, ptr') <== get_stmt scop_statement_ptr ;;
                scop_unions_loop f next ptr' head
  end.
(** The final walk to the last statement. *)
Fixpoint scop_unions_walk (fuel : nat) (p : ptr) : oprog unit :=
  match fuel with
  | O => lift OutOfFuel
  | S f => if isnull p then ret tt
           else '(_, _, _, _, n) <== get_stmt p ;; if isnull n then ret tt else scop_unions_walk f n
  end.
Fixpoint scop_remove_unions_loop (fuel : nat) (scop result scop_ptr : ptr) : oprog ptr :=
  match fuel with
  | O => lift OutOfFuel
  | S f =>
      if isnull scop then ret result
      else x <== get_scop scop ;;
           new <== alloc (CScop 1 None NULL NULL NULL NULL NULL NULL) ;;
           s <== loop (fun n => scop_unions_loop n (sn_statement x) NULL NULL) ;;
           loop (fun n => scop_unions_walk n s) ;;==
           c <== osl_relation_clone_p (sn_context x) ;;
           e <== osl_generic_clone_p (sn_extension x) ;;
           p <== osl_generic_clone_p (sn_parameters x) ;;
           r <== osl_interface_clone_p (sn_registry x) ;;
           store new (CScop (sn_version x) (sn_language x) c p s r e NULL) ;;==
           (if isnull result then ret tt else set_scop_next scop_ptr new) ;;==
           y <== get_scop scop ;;
           scop_remove_unions_loop f (sn_next y) (if isnull result then new else result) new
  end.
(** source/scop.c:651-692 osl_scop_remove_unions *)
Definition osl_scop_remove_unions_p (scop : ptr) : oprog ptr :=
  loop (fun n => scop_remove_unions_loop n scop NULL NULL).

End OBJECTS.
