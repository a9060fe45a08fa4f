(** * ListMatModel: unions and lists of relations, and the transformations of statements and scops, in memory with every coefficient
    (source/relation.c, source/relation_list.c, source/statement.c, source/scop.c)

    As in HeapObjects.v, but the relations are those of MatModel.v, where every coefficient is a variable (a GMP number in the
    memory that it owns), and the statements and scops are those of FullModel.v, with all their extensions.  The functions
    that only touch the nodes of a list (osl_relation_list_add, _push, _pop, _count) are those of HeapObjects.v.

    Simplifications: as in MatModel.v, FullModel.v and ReadMatModel.v. *)
From stdpp Require Import gmap.
From Verif Require Import Base IntModel VectorModel RelationModel UtilModel ScopModel HeapModel HeapObjects PayloadModel MatModel FullModel PrintHeapModel SaveHeapModel ReadMatModel.
Notation loop := HeapModel.loop.

Section LISTS.
Context {cfg : config} {al : Allocator obj}.

(** ** source/relation.c *)
Fixpoint relation_add_loop_m (fuel : nat) (p r2 : ptr) : oprog unit :=
  match fuel with
  | O => lift OutOfFuel
  | S f => '(_, _, n) <== get_part p ;; if isnull n then set_part_next p r2 else relation_add_loop_m f n r2
  end.
(** source/relation.c:1818-1823 osl_relation_add; the result is the new value of [*r1].  The address [r1] is that of the caller's
    variable, then that of a [next] field. *)
Definition osl_relation_add_m (r1 r2 : ptr) : oprog ptr :=
  if isnull r1 then ret r2 else loop (λ n, relation_add_loop_m n r1 r2) ;;== ret r1.
(** source/relation.c:1834-1845 osl_relation_union *)
Definition osl_relation_union_m (r1 r2 : ptr) : oprog ptr :=
  if isnull r1 && isnull r2 then ret NULL
  else copy1 <== osl_relation_clone_m r1 ;;
       copy2 <== osl_relation_clone_m r2 ;;
       osl_relation_add_m copy1 copy2.
Fixpoint remove_part_loop_m (fuel : nat) (relation previous part : ptr) : oprog unit :=
  match fuel with
  | O => lift OutOfFuel
  | S f =>
      if isnull relation then ret tt
      else '(_, _, next) <== get_part relation ;;
           if Z.eqb relation part then
             set_part_next previous next ;;==
             set_part_next relation NULL ;;==
             osl_relation_free_m relation
           else remove_part_loop_m f next relation part
  end.
(** source/relation.c:2951-2975 osl_relation_remove_part (the address of the list is not NULL); the result is the new value of
    [*relation_list]. *)
Definition osl_relation_remove_part_m (list part : ptr) : oprog ptr :=
  if isnull list || isnull part then ret list
  else if Z.eqb list part then '(_, _, next) <== get_part list ;; ret next
  else '(_, _, next) <== get_part list ;; loop (λ n, remove_part_loop_m n next list part) ;;== ret list.

(** ** source/relation_list.c *)
(** source/relation_list.c:470-487 osl_relation_list_concat *)
Definition osl_relation_list_concat_m (l1 l2 : ptr) : oprog ptr :=
  if isnull l1 then osl_relation_list_clone_m l2
  else if isnull l2 then osl_relation_list_clone_m l1
  else new <== osl_relation_list_clone_m l1 ;;
       last <== loop (λ n, list_last_loop n new) ;;
       c <== osl_relation_list_clone_m l2 ;;
       set_list_next last c ;;==
       ret new.
(** source/relation_list.c:551-555 osl_relation_list_dup *)
Definition osl_relation_list_dup_m (head : ptr) : oprog ptr :=
  '(top, head) <== osl_relation_list_pop_p head ;;
  c <== osl_relation_list_clone_m top ;;
  head <== osl_relation_list_push_p head c ;;
  osl_relation_list_push_p head top.
(** source/relation_list.c:566-569 osl_relation_list_drop *)
Definition osl_relation_list_drop_m (head : ptr) : oprog ptr :=
  '(top, head) <== osl_relation_list_pop_p head ;;
  osl_relation_list_free_m top ;;==
  ret head.
Fixpoint list_destroy_loop_m (fuel : nat) (head : ptr) : oprog ptr :=
  match fuel with
  | O => lift OutOfFuel
  | S f => if isnull head then ret head else head <== osl_relation_list_drop_m head ;; list_destroy_loop_m f head
  end.
(** source/relation_list.c:579-582 osl_relation_list_destroy *)
Definition osl_relation_list_destroy_m (head : ptr) : oprog ptr := loop (λ n, list_destroy_loop_m n head).
(** The assignment of source/relation_list.c:651-658 osl_relation_list_set_type to one element *)
Definition set_elt_type_m (elt : ptr) (type : Z) : oprog unit :=
  if isnull elt then ret tt else '(r, m, n) <== get_part elt ;; put elt (BRel (with_type r type) m n).
Fixpoint list_set_type_loop_m (fuel : nat) (list : ptr) (type : Z) : oprog unit :=
  match fuel with
  | O => lift OutOfFuel
  | S f =>
      if isnull list then ret tt
      else '(elt, next) <== get_list list ;; set_elt_type_m elt type ;;== list_set_type_loop_m f next type
  end.
(** source/relation_list.c:651-658 osl_relation_list_set_type *)
Definition osl_relation_list_set_type_m (list : ptr) (type : Z) : oprog unit := loop (λ n, list_set_type_loop_m n list type).

(** ** source/statement.c *)
(** source/statement.c:606-611 osl_relation_clone_one_safe *)
Definition osl_relation_clone_one_safe_m (relation : ptr) : oprog ptr := if isnull relation then ret NULL else osl_relation_nclone_m relation 1.
(** The new statement of source/statement.c:635-640 osl_statement_remove_unions *)
Definition piece_m (d s a e : ptr) : oprog ptr :=
  node <== osl_statement_malloc_f ;;
  d' <== osl_relation_clone_one_safe_m d ;;
  s' <== osl_relation_clone_one_safe_m s ;;
  a' <== osl_relation_list_clone_m a ;;
  e' <== osl_generic_clone_f e ;;
  put node (BStmt d' s' a' e' NULL) ;;==
  ret node.
(** The inner loop of source/statement.c:624-659 osl_statement_remove_unions, on the parts of the scattering *)
Fixpoint remove_unions_scat_loop_m (fuel : nat) (domain scattering a e result statement_ptr : ptr) : oprog (ptr * ptr) :=
  match fuel with
  | O => lift OutOfFuel
  | S f =>
      new <== piece_m domain scattering a e ;;
      (if isnull result then ret tt else set_stmt_next_b statement_ptr new) ;;==
      let result := if isnull result then new else result in
      if isnull scattering then ret (result, new)
      else '(_, _, next) <== get_part scattering ;;
           if isnull next then ret (result, new) else remove_unions_scat_loop_m f domain next a e result new
  end.
(** The outer loop of source/statement.c:624-659 osl_statement_remove_unions, on the parts of the domain *)
Fixpoint remove_unions_dom_loop_m (fuel : nat) (domain scattering a e result statement_ptr : ptr) : oprog ptr :=
  match fuel with
  | O => lift OutOfFuel
  | S f =>
      '(result, statement_ptr) <== loop (λ n, remove_unions_scat_loop_m n domain scattering a e result statement_ptr) ;;
      if isnull domain then ret result
      else '(_, _, next) <== get_part domain ;;
           if isnull next then ret result else remove_unions_dom_loop_m f next scattering a e result statement_ptr
  end.
(** source/statement.c:624-659 osl_statement_remove_unions *)
Definition osl_statement_remove_unions_m (statement : ptr) : oprog ptr :=
  if isnull statement then ret NULL
  else '(d, s, a, e, _) <== get_stmt_b statement ;; loop (λ n, remove_unions_dom_loop_m n d s a e NULL NULL).

(** ** source/scop.c *)
(** The first loop of source/scop.c:947-975 osl_scop_normalize_scattering: the largest number of output dimensions *)
Fixpoint max_nout_loop (fuel : nat) (statement : ptr) (max : Z) : oprog Z :=
  match fuel with
  | O => lift OutOfFuel
  | S f =>
      if isnull statement then ret max
      else '(_, s, _, _, next) <== get_stmt_b statement ;;
           max <== (if isnull s then ret max else '(r, _, _) <== get_part s ;; ret (Z.max max (nout r))) ;;
           max_nout_loop f next max
  end.
(** The second loop of source/scop.c:947-975 osl_scop_normalize_scattering *)
Fixpoint normalize_loop (fuel : nat) (statement : ptr) (max : Z) : oprog unit :=
  match fuel with
  | O => lift OutOfFuel
  | S f =>
      if isnull statement then ret tt
      else '(d, s, a, e, next) <== get_stmt_b statement ;;
           (if isnull s then ret tt
            else extended <== osl_relation_extend_output_m s max ;;
                 osl_relation_free_m s ;;==
                 put statement (BStmt d extended a e next)) ;;==
           normalize_loop f next max
  end.
(** source/scop.c:947-975 osl_scop_normalize_scattering *)
Definition osl_scop_normalize_scattering_m (scop : ptr) : oprog unit :=
  if isnull scop then ret tt
  else '(_, _, _, _, st, _, _, _) <== get_scop_b scop ;;
       if isnull st then ret tt
       else max <== loop (λ n, max_nout_loop n st 0) ;; loop (λ n, normalize_loop n st max).
End LISTS.
