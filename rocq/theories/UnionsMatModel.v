(** * UnionsMatModel: osl_scop_remove_unions in memory with every coefficient (source/scop.c)

    As in HeapObjects.v, with the relations of MatModel.v and the statements and scops of FullModel.v.

    Simplifications: as in MatModel.v, FullModel.v and ReadMatModel.v; the assignments to the fields of the new scop are one assignment after the
    copies are made (they are independent of each other). *)
From stdpp Require Import gmap.
From Verif Require Import Base IntModel VectorModel RelationModel UtilModel ScopModel HeapModel HeapObjects PayloadModel MatModel FullModel PrintHeapModel SaveHeapModel ReadMatModel ListMatModel.
Notation loop := HeapModel.loop.

Section UNIONS.
Context {cfg : config} {al : Allocator obj}.
(** The loop of source/scop.c:660-669 osl_scop_remove_unions on the statements of a scop: the result is the list of the new scop ([head]) and
    the pointer into it at the end of the loop. *)
Fixpoint scop_unions_loop_m (fuel : nat) (statement scop_statement_ptr head : ptr) : oprog (ptr * ptr) :=
  match fuel with
  | O => lift OutOfFuel
  | S f =>
      if isnull statement then ret (head, scop_statement_ptr)
      else new <== osl_statement_remove_unions_m statement ;;
           '(_, _, _, _, next) <== get_stmt_b statement ;;
           if isnull scop_statement_ptr then scop_unions_loop_m f next new new
           else set_stmt_next_b scop_statement_ptr new ;;==
                '(_, _, _, _, ptr') <== get_stmt_b scop_statement_ptr ;;
                scop_unions_loop_m f next ptr' head
  end.
(** The walk of source/scop.c:670-671 osl_scop_remove_unions to the last statement *)
Fixpoint scop_unions_walk_m (fuel : nat) (p : ptr) : oprog unit :=
  match fuel with
  | O => lift OutOfFuel
  | S f => if isnull p then ret tt
           else '(_, _, _, _, n) <== get_stmt_b p ;; if isnull n then ret tt else scop_unions_walk_m f n
  end.
(** The outer loop of source/scop.c:651-692 osl_scop_remove_unions *)
Fixpoint scop_remove_unions_loop_m (fuel : nat) (scop result scop_ptr : ptr) : oprog ptr :=
  match fuel with
  | O => lift OutOfFuel
  | S f =>
      if isnull scop then ret result
      else node <== osl_scop_malloc_f ;;
           '(v, l, c, p, s, r, e, next) <== get_scop_b scop ;;
           '(s', last) <== loop (λ k, scop_unions_loop_m k s NULL NULL) ;;
           loop (λ k, scop_unions_walk_m k last) ;;==
           c' <== osl_relation_clone_m c ;;
           e' <== osl_generic_clone_f e ;;
           l' <== (if isnull l then ret NULL else strdup_p l) ;;
           p' <== osl_generic_clone_f p ;;
           r' <== osl_interface_clone_f r ;;
           put node (BScop v l' c' p' s' r' e' NULL) ;;==
           (if isnull result then ret tt else set_scop_next_b scop_ptr node) ;;==
           scop_remove_unions_loop_m f next (if isnull result then node else result) node
  end.
(** source/scop.c:651-692 osl_scop_remove_unions *)
Definition osl_scop_remove_unions_m (scop : ptr) : oprog ptr := loop (λ k, scop_remove_unions_loop_m k scop NULL NULL).
End UNIONS.
