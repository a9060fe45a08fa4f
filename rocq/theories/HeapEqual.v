(** * HeapEqual: the comparison functions on linked structures, pointer by pointer *)
From stdpp Require Import gmap.
From Verif Require Import Base IntModel VectorModel RelationModel HeapModel HeapObjects.

Section EQUAL.
Context {cfg : config} {al : Allocator obj}.

(** source/relation.c:2315-2339 osl_relation_part_equal: pointer tests, then the fields and the coefficients *)
Definition osl_relation_part_equal_p (r1 r2 : ptr) : oprog bool :=
  if Z.eqb r1 r2 then ret true
  else if (isnull r1 && negb (isnull r2)) || (negb (isnull r1) && isnull r2) then ret false
  else '(a1, _) <== read_part r1 ;;
       '(a2, _) <== read_part r2 ;;
       lift (osl_relation_part_equal a1 a2).
Fixpoint relation_equal_loop (fuel : nat) (r1 r2 : ptr) : oprog bool :=
  match fuel with
  | O => lift OutOfFuel
  | S f =>
      if negb (isnull r1) && negb (isnull r2) then
        e <== osl_relation_part_equal_p r1 r2 ;;
        if e : bool then
          '(_, _, n1) <== get_rel r1 ;;
          '(_, _, n2) <== get_rel r2 ;;
          relation_equal_loop f n1 n2
        else ret false
      else if (isnull r1 && negb (isnull r2)) || (negb (isnull r1) && isnull r2) then ret false
      else ret true
  end.
(** source/relation.c:2349-2362 osl_relation_equal *)
Definition osl_relation_equal_p (r1 r2 : ptr) : oprog bool := loop (fun n => relation_equal_loop n r1 r2).

Fixpoint list_equal_loop (fuel : nat) (l1 l2 : ptr) : oprog bool :=
  match fuel with
  | O => lift OutOfFuel
  | S f =>
      if negb (isnull l1) && negb (isnull l2) then
        if Z.eqb l1 l2 then ret true
        else '(e1, n1) <== get_list l1 ;;
             '(e2, n2) <== get_list l2 ;;
             e <== osl_relation_equal_p e1 e2 ;;
             if e : bool then list_equal_loop f n1 n2 else ret false
      else if (isnull l1 && negb (isnull l2)) || (negb (isnull l1) && isnull l2) then ret false
      else ret true
  end.
(** source/relation_list.c:592-609 osl_relation_list_equal *)
Definition osl_relation_list_equal_p (l1 l2 : ptr) : oprog bool := loop (fun n => list_equal_loop n l1 l2).

(** The equal function of an interface: the same address, or the same contents (NULL differs from anything else). *)
Definition data_equal (interface d1 d2 : ptr) : oprog bool :=
  '(_, _, _) <== get_iface interface ;;
  if Z.eqb d1 d2 then ret true
  else if isnull d1 || isnull d2 then ret false
  else z1 <== get_data d1 ;; z2 <== get_data d2 ;; ret (Z.eqb z1 z2).
(** The inner loop of osl_generic_equal: [Some found], or [None] when the function returns 0 at once. *)
Fixpoint generic_equal_inner (fuel : nat) (x1 x2 : ptr) : oprog (option bool) :=
  match fuel with
  | O => lift OutOfFuel
  | S f =>
      if isnull x2 then ret (Some false)
      else '(d1, i1, _) <== get_gen x1 ;;
           '(d2, i2, n2) <== get_gen x2 ;;
           e <== osl_interface_equal_p i1 i2 ;;
           if e : bool then
             equal <== (if isnull i1 then ret false else data_equal i1 d1 d2) ;;
             if equal : bool then ret (Some true) else ret None
           else generic_equal_inner f x1 n2
  end.
Fixpoint generic_equal_outer (fuel : nat) (x1 x2 : ptr) : oprog bool :=
  match fuel with
  | O => lift OutOfFuel
  | S f =>
      if isnull x1 then ret true
      else found <== loop (fun n => generic_equal_inner n x1 x2) ;;
           match found with
           | Some true => '(_, _, n1) <== get_gen x1 ;; generic_equal_outer f n1 x2
           | _ => ret false
           end
  end.
(** source/generic.c:582-626 osl_generic_equal *)
Definition osl_generic_equal_p (x1 x2 : ptr) : oprog bool :=
  if Z.eqb x1 x2 then ret true
  else n1 <== osl_generic_count_p x1 ;;
       n2 <== osl_generic_count_p x2 ;;
       if negb (n1 =? n2) then ret false
       else loop (fun n => generic_equal_outer n x1 x2).

(** source/statement.c:669-707 osl_statement_equal: the address test comes first, then the [next] fields are
    read without a NULL test *)
Fixpoint statement_equal_rec (fuel : nat) (s1 s2 : ptr) : oprog bool :=
  match fuel with
  | O => lift OutOfFuel
  | S f =>
      if Z.eqb s1 s2 then ret true
      else '(d1, sc1, a1, e1, n1) <== get_stmt s1 ;;
           '(d2, sc2, a2, e2, n2) <== get_stmt s2 ;;
           if (negb (isnull n1) && isnull n2) || (isnull n1 && negb (isnull n2)) then ret false
           else rest <== (if negb (isnull n1) && negb (isnull n2) then statement_equal_rec f n1 n2 else ret true) ;;
                if negb rest then ret false
                else e <== osl_relation_equal_p d1 d2 ;;
                     if negb e then ret false
                     else e <== osl_relation_equal_p sc1 sc2 ;;
                          if negb e then ret false
                          else e <== osl_relation_list_equal_p a1 a2 ;;
                               if negb e then ret false
                               else osl_generic_equal_p e1 e2
  end.
Definition osl_statement_equal_p (s1 s2 : ptr) : oprog bool := loop (fun n => statement_equal_rec n s1 s2).

Fixpoint scop_equal_loop (fuel : nat) (s1 s2 : ptr) : oprog bool :=
  match fuel with
  | O => lift OutOfFuel
  | S f =>
      if negb (isnull s1) && negb (isnull s2) then
        if Z.eqb s1 s2 then ret true
        else x1 <== get_scop s1 ;;
             x2 <== get_scop s2 ;;
             if negb (sn_version x1 =? sn_version x2) then ret false
             else match sn_language x1, sn_language x2 with
                  | Some g1, Some g2 =>
                      if negb (str_eqb g1 g2) then ret false
                      else
                        e <== osl_relation_equal_p (sn_context x1) (sn_context x2) ;;
                        if negb e then ret false
                        else
                          e <== osl_generic_equal_p (sn_parameters x1) (sn_parameters x2) ;;
                          if negb e then ret false
                          else
                            e <== osl_statement_equal_p (sn_statement x1) (sn_statement x2) ;;
                            if negb e then ret false
                            else
                              e <== osl_interface_equal_p (sn_registry x1) (sn_registry x2) ;;
                              if negb e then ret false
                              else
                                e <== osl_generic_equal_p (sn_extension x1) (sn_extension x2) ;;
                                if negb e then ret false
                                else scop_equal_loop f (sn_next x1) (sn_next x2)
                  | _, _ => lift UB   (* strcmp on NULL *)
                  end
      else if (isnull s1 && negb (isnull s2)) || (negb (isnull s1) && isnull s2) then ret false
      else ret true
  end.
(** source/scop.c:702-748 osl_scop_equal *)
Definition osl_scop_equal_p (s1 s2 : ptr) : oprog bool := loop (fun n => scop_equal_loop n s1 s2).

End EQUAL.
