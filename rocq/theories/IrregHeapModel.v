(** * IrregHeapModel: source/extensions/irregular.c as programs on the heap

    The structure, its arrays of counts, pointers and strings are blocks of their own, as in PayloadModel.v.

    Simplifications: the fields of a structure just allocated are given the values that are assigned next; the arrays of the new
    structure are kept in variables instead of being read again through its fields; malloc never fails (the tests of its result
    are left out; malloc of no element returns a block); int counters do not overflow (they count elements). *)
From stdpp Require Import gmap.
From Verif Require Import Base IntModel VectorModel RelationModel HeapModel HeapObjects PayloadModel.

(** include/osl/extensions/irregular.h:86-104 osl_irregular_t *)
Record irr_node := INode { in_control : Z; in_exit : Z; in_nbit : ptr; in_iters : ptr; in_body : ptr;
                           in_stmts : Z; in_nbpred : ptr; in_preds : ptr }.

Section IRREGULAR.
Context {cfg : config} {al : Allocator obj}.

Definition get_irregular (p : ptr) : oprog irr_node :=
  b <== get_block p ;;
  match b with BIrregular nc ne ni it bo ns np pr => ret (INode nc ne ni it bo ns np pr) | _ => lift UB end.
Definition put_irregular (p : ptr) (x : irr_node) : oprog unit :=
  put p (BIrregular (in_control x) (in_exit x) (in_nbit x) (in_iters x) (in_body x) (in_stmts x) (in_nbpred x) (in_preds x)).
(** source/extensions/irregular.c:343-357 osl_irregular_malloc *)
Definition osl_irregular_malloc_p : oprog ptr := malloc (BIrregular 0 0 NULL NULL NULL 0 NULL NULL).
(** [if (p != NULL) free(p)] *)
Definition free_array (p : ptr) : oprog unit := if isnull p then ret tt else free p.
(** source/extensions/irregular.c:365-392 osl_irregular_free *)
Definition osl_irregular_free_p (irregular : ptr) : oprog unit :=
  if isnull irregular then ret tt
  else x <== get_irregular irregular ;;
       pfor (Z.to_nat (in_stmts x)) 0 (λ i, q <== ptr_at (in_preds x) i ;; free q) ;;==
       free_array (in_preds x) ;;==
       pfor (Z.to_nat (in_control x + in_exit x)) 0 (λ i,
         n <== int_at (in_nbit x) i ;;
         t <== ptr_at (in_iters x) i ;;
         pfor (Z.to_nat n) 0 (λ j, s <== ptr_at t j ;; free s) ;;==
         free t ;;==
         b <== ptr_at (in_body x) i ;; free b) ;;==
       free_array (in_iters x) ;;==
       free_array (in_nbit x) ;;==
       free_array (in_body x) ;;==
       free_array (in_nbpred x) ;;==
       free irregular.

(** OSL_strdup(to[j], from[j]) for the first [n] elements *)
Definition copy_strings_p (from to : ptr) (n : nat) : oprog unit :=
  pfor n 0 (λ j, s <== ptr_at from j ;; s' <== OSL_strdup_p s ;; set_ptr to j s').
(** The [j]-th predicate of [x] becomes the [i]-th one of the arrays [ni], [it], [bo]: source/extensions/irregular.c:531-543, 555-567,
    608-620, 673-685 *)
Definition copy_predicate_p (x : irr_node) (j : nat) (ni it bo : ptr) (i : nat) : oprog unit :=
  n <== int_at (in_nbit x) j ;; set_int ni i n ;;==
  b <== ptr_at (in_body x) j ;; b' <== OSL_strdup_p b ;; set_ptr bo i b' ;;==
  t <== new_ptrs (Z.to_nat n) ;; set_ptr it i t ;;==
  pfor (Z.to_nat n) 0 (λ k, u <== ptr_at (in_iters x) j ;; s <== ptr_at u k ;; s' <== OSL_strdup_p s ;; set_ptr t k s').
(** A new predicate as the [i]-th one: source/extensions/irregular.c:544-554, 621-632 *)
Definition new_predicate_p (iterators : ptr) (nb_iterators : Z) (body : ptr) (ni it bo : ptr) (i : nat) : oprog unit :=
  t <== new_ptrs (Z.to_nat nb_iterators) ;; set_ptr it i t ;;==
  copy_strings_p iterators t (Z.to_nat nb_iterators) ;;==
  set_int ni i nb_iterators ;;==
  b' <== OSL_strdup_p body ;; set_ptr bo i b'.
(** The statements: source/extensions/irregular.c:568-585, 633-650, 686-703 *)
Definition copy_statement_p (x : irr_node) (np pr : ptr) (i : nat) : oprog unit :=
  n <== int_at (in_nbpred x) i ;;
  q <== new_ints (Z.to_nat n) ;; set_ptr pr i q ;;==
  set_int np i n ;;==
  pfor (Z.to_nat n) 0 (λ j, s <== ptr_at (in_preds x) i ;; v <== int_at s j ;; set_int q j v).

(** source/extensions/irregular.c:512-587 osl_irregular_add_control *)
Definition osl_irregular_add_control_p (irregular iterators : ptr) (nb_iterators : Z) (body : ptr) : oprog ptr :=
  result <== osl_irregular_malloc_p ;;
  x <== get_irregular irregular ;;
  let nc := in_control x + 1 in
  let n := nc + in_exit x in
  it <== new_ptrs (Z.to_nat n) ;; ni <== new_ints (Z.to_nat n) ;; bo <== new_ptrs (Z.to_nat n) ;;
  pfor (Z.to_nat (in_control x)) 0 (λ i, copy_predicate_p x i ni it bo i) ;;==
  new_predicate_p iterators nb_iterators body ni it bo (Z.to_nat (in_control x)) ;;==
  pfor (Z.to_nat (n - nc)) (Z.to_nat nc) (λ i, copy_predicate_p x (i - 1) ni it bo i) ;;==
  np <== new_ints (Z.to_nat (in_stmts x)) ;; pr <== new_ptrs (Z.to_nat (in_stmts x)) ;;
  pfor (Z.to_nat (in_stmts x)) 0 (λ i, copy_statement_p x np pr i) ;;==
  put_irregular result (INode nc (in_exit x) ni it bo (in_stmts x) np pr) ;;==
  ret result.
(** source/extensions/irregular.c:589-652 osl_irregular_add_exit *)
Definition osl_irregular_add_exit_p (irregular iterators : ptr) (nb_iterators : Z) (body : ptr) : oprog ptr :=
  result <== osl_irregular_malloc_p ;;
  x <== get_irregular irregular ;;
  let ne := in_exit x + 1 in
  let n := in_control x + ne in
  it <== new_ptrs (Z.to_nat n) ;; ni <== new_ints (Z.to_nat n) ;; bo <== new_ptrs (Z.to_nat n) ;;
  pfor (Z.to_nat (n - 1)) 0 (λ i, copy_predicate_p x i ni it bo i) ;;==
  new_predicate_p iterators nb_iterators body ni it bo (Z.to_nat (n - 1)) ;;==
  np <== new_ints (Z.to_nat (in_stmts x)) ;; pr <== new_ptrs (Z.to_nat (in_stmts x)) ;;
  pfor (Z.to_nat (in_stmts x)) 0 (λ i, copy_statement_p x np pr i) ;;==
  put_irregular result (INode (in_control x) ne ni it bo (in_stmts x) np pr) ;;==
  ret result.
(** source/extensions/irregular.c:654-716 osl_irregular_add_predicates *)
Definition osl_irregular_add_predicates_p (irregular predicates : ptr) (nb_add_predicates : Z) : oprog ptr :=
  result <== osl_irregular_malloc_p ;;
  x <== get_irregular irregular ;;
  let ns := in_stmts x + 1 in
  let n := in_control x + in_exit x in
  it <== new_ptrs (Z.to_nat n) ;; ni <== new_ints (Z.to_nat n) ;; bo <== new_ptrs (Z.to_nat n) ;;
  pfor (Z.to_nat n) 0 (λ i, copy_predicate_p x i ni it bo i) ;;==
  np <== new_ints (Z.to_nat ns) ;; pr <== new_ptrs (Z.to_nat ns) ;;
  pfor (Z.to_nat (in_stmts x)) 0 (λ i, copy_statement_p x np pr i) ;;==
  q <== new_ints (Z.to_nat nb_add_predicates) ;; set_ptr pr (Z.to_nat (in_stmts x)) q ;;==
  pfor (Z.to_nat nb_add_predicates) 0 (λ i, v <== int_at predicates i ;; set_int q i v) ;;==
  set_int np (Z.to_nat (in_stmts x)) nb_add_predicates ;;==
  put_irregular result (INode (in_control x) (in_exit x) ni it bo ns np pr) ;;==
  ret result.

(** source/extensions/irregular.c:405-466 osl_irregular_clone: body[i] is copied into iterators[i][nb_iterators[i]]. *)
Definition clone_statement_p (x : irr_node) (np pr : ptr) (i : nat) : oprog unit :=
  n <== int_at (in_nbpred x) i ;; set_int np i n ;;==
  q <== new_ints (Z.to_nat n) ;; set_ptr pr i q ;;==
  pfor (Z.to_nat n) 0 (λ j, s <== ptr_at (in_preds x) i ;; v <== int_at s j ;; set_int q j v).
Definition clone_predicate_p (x : irr_node) (ni it : ptr) (i : nat) : oprog unit :=
  n <== int_at (in_nbit x) i ;; set_int ni i n ;;==
  t <== new_ptrs (Z.to_nat n) ;; set_ptr it i t ;;==
  pfor (Z.to_nat n) 0 (λ j, u <== ptr_at (in_iters x) i ;; s <== ptr_at u j ;; s' <== OSL_strdup_p s ;; set_ptr t j s') ;;==
  b <== ptr_at (in_body x) i ;; b' <== OSL_strdup_p b ;; set_ptr t (Z.to_nat n) b'.
Definition osl_irregular_clone_p (irregular : ptr) : oprog ptr :=
  if isnull irregular then ret NULL
  else copy <== osl_irregular_malloc_p ;;
       x <== get_irregular irregular ;;
       np <== new_ints (Z.to_nat (in_stmts x)) ;; pr <== new_ptrs (Z.to_nat (in_stmts x)) ;;
       pfor (Z.to_nat (in_stmts x)) 0 (λ i, clone_statement_p x np pr i) ;;==
       let n := in_control x + in_exit x in
       ni <== new_ints (Z.to_nat n) ;; it <== new_ptrs (Z.to_nat n) ;; bo <== new_ptrs (Z.to_nat n) ;;
       pfor (Z.to_nat n) 0 (λ i, clone_predicate_p x ni it i) ;;==
       put_irregular copy (INode (in_control x) (in_exit x) ni it bo (in_stmts x) np pr) ;;==
       ret copy.
End IRREGULAR.
