(** * MatModel: coefficients, vectors and constraint matrices in memory (source/int.c, source/vector.c, source/relation.c)

    HeapObjects.v takes the matrix of a relation as one block.  Here a matrix is an array of pointers into an array of
    osl_int_t (include/osl/int.h:78-86), and a GMP coefficient is a pointer to an mpz_t which owns the memory of its
    number: every block that the C code allocates, copies, replaces or frees is there.

    [osl_int_t*] is an array and an index into it.  An osl_int_t written in a precision can only be read in that
    precision.  Simplifications: the fields of a structure just allocated are given the values assigned next; sizes are
    C ints and nb_rows * nb_columns is assumed to stay below 2^31; a GMP operation is one step. *)
From stdpp Require Import gmap.
From Verif Require Import Base IntModel VectorModel RelationModel HeapModel HeapObjects PayloadModel.

Section MAT.
Context {cfg : config} {al : Allocator obj}.

(** ** Arrays of coefficients *)
Definition addr := (ptr * Z)%type.
Definition get_cells (b : ptr) : oprog (list (option coef)) :=
  x <== get_block b ;; match x with BCells l => ret l | _ => lift UB end.
Definition coef_at (a : addr) : oprog coef :=
  l <== get_cells (fst a) ;;
  if Z.ltb (snd a) 0 then lift UB else match l !! Z.to_nat (snd a) with Some (Some c) => ret c | _ => lift UB end.
Definition set_coef (a : addr) (c : coef) : oprog unit :=
  l <== get_cells (fst a) ;;
  if Z.leb 0 (snd a) && Z.ltb (snd a) (Z.of_nat (List.length l)) then put (fst a) (BCells (<[Z.to_nat (snd a) := Some c]> l)) else lift UB.
Definition new_cells (n : Z) : oprog ptr := malloc (BCells (repeat None (Z.to_nat n))).
(** [&a[i]] *)
Definition shift (a : addr) (i : Z) : addr := (fst a, (snd a + i)%Z).
Definition get_rows (m : ptr) : oprog (list (option addr)) :=
  x <== get_block m ;; match x with BRows l => ret l | _ => lift UB end.
(** [m[i]] and [m[i] = a] *)
Definition row_at (m : ptr) (i : Z) : oprog addr :=
  l <== get_rows m ;; if Z.ltb i 0 then lift UB else match l !! Z.to_nat i with Some (Some a) => ret a | _ => lift UB end.
Definition set_row (m : ptr) (i : Z) (a : addr) : oprog unit :=
  l <== get_rows m ;;
  if Z.leb 0 i && Z.ltb i (Z.of_nat (List.length l)) then put m (BRows (<[Z.to_nat i := Some a]> l)) else lift UB.
(** [&m[i][j]] *)
Definition entry (m : ptr) (i j : Z) : oprog addr := a <== row_at m i ;; ret (shift a j).
(** [for (i = lo; i < hi; i++)] *)
Fixpoint zfor_loop (k : nat) (i : Z) (f : Z → oprog unit) : oprog unit :=
  match k with O => ret tt | S k' => f i ;;== zfor_loop k' (i + 1)%Z f end.
Definition zfor (lo hi : Z) (f : Z → oprog unit) : oprog unit := zfor_loop (Z.to_nat (hi - lo)) lo f.
(** [for (i = lo; i < hi; i++) if (!cond(i)) return 0; return 1;] *)
Fixpoint zall_loop (k : nat) (i : Z) (f : Z → oprog bool) : oprog bool :=
  match k with O => ret true | S k' => b <== f i ;; if b then zall_loop k' (i + 1)%Z f else ret false end.
Definition zall (lo hi : Z) (f : Z → oprog bool) : oprog bool := zall_loop (Z.to_nat (hi - lo)) lo f.

(** ** Coefficients *)
Definition get_mpz (q : ptr) : oprog ptr := x <== get_block q ;; match x with BMpz d => ret d | _ => lift UB end.
Definition get_limbs (d : ptr) : oprog Z := x <== get_block d ;; match x with BLimbs z => ret z | _ => lift UB end.
(** The default case of every switch on the precision: OSL_error("unknown precision") *)
Definition known (p : Z) : oprog unit := if osl_int_is_precision_supported p then ret tt else lift Err.
(** The number in a variable *)
Definition number (p : Z) (a : addr) : oprog Z :=
  known p ;;== c <== coef_at a ;;
  match c with
  | Num p' z => if Z.eqb p' p then ret z else lift UB
  | Mp q => if is_mp p then d <== get_mpz q ;; get_limbs d else lift UB
  end.
(** A new number in a variable that has been initialised *)
Definition renumber (p : Z) (a : addr) (z : Z) : oprog unit :=
  if is_mp p then c <== coef_at a ;;
                  match c with
                  | Mp q => d <== get_mpz q ;; get_limbs d ;;== put d (BLimbs z)
                  | Num _ _ => lift UB
                  end
  else set_coef a (Num p z).
(** source/int.c:461-482 osl_int_init_set_si *)
Definition osl_int_init_set_si_m (p : Z) (variable : addr) (i : Z) : oprog unit :=
  z <== lift (osl_int_init_set_si p i) ;;
  if is_mp p then d <== malloc (BLimbs z) ;; q <== malloc (BMpz d) ;; set_coef variable (Mp q)
  else set_coef variable (Num p z).
(** source/int.c:135-155 osl_int_init *)
Definition osl_int_init_m (p : Z) (variable : addr) : oprog unit := osl_int_init_set_si_m p variable 0.
(** source/int.c:561-581 osl_int_clear *)
Definition osl_int_clear_m (p : Z) (variable : addr) : oprog unit :=
  lift (osl_int_clear p) ;;==
  if is_mp p then c <== coef_at variable ;;
                  match c with
                  | Mp q => d <== get_mpz q ;; get_limbs d ;;== free d ;;== free q
                  | Num _ _ => lift UB
                  end
  else set_coef variable (Num p 0).
(** source/int.c:157-166 osl_int_malloc *)
Definition osl_int_malloc_m (p : Z) : oprog ptr :=
  variable <== new_cells 1 ;; osl_int_init_m p (variable, 0%Z) ;;== ret variable.
(** source/int.c:583-586 osl_int_free *)
Definition osl_int_free_m (p : Z) (variable : ptr) : oprog unit := osl_int_clear_m p (variable, 0%Z) ;;== free variable.
(** source/int.c:175-195 osl_int_assign *)
Definition osl_int_assign_m (p : Z) (variable value : addr) : oprog unit :=
  x <== number p value ;; z <== lift (osl_int_assign p x) ;; renumber p variable z.
(** source/int.c:203-223 osl_int_set_si *)
Definition osl_int_set_si_m (p : Z) (variable : addr) (i : Z) : oprog unit :=
  z <== lift (osl_int_set_si p i) ;; renumber p variable z.
(** source/int.c osl_int_add, osl_int_sub ([op]): the result goes to [variable], which may be an operand *)
Definition int_op_m (op : Z → Z → Z → res Z) (p : Z) (variable a b : addr) : oprog unit :=
  x <== number p a ;; y <== number p b ;; z <== lift (op p x y) ;; renumber p variable z.
(** source/int.c osl_int_add_si, osl_int_mul_si *)
Definition int_op_si_m (op : Z → Z → Z → res Z) (p : Z) (variable a : addr) (i : Z) : oprog unit :=
  x <== number p a ;; z <== lift (op p x i) ;; renumber p variable z.
(** source/int.c:522-554 osl_int_swap *)
Definition osl_int_swap_m (p : Z) (var1 var2 : addr) : oprog unit :=
  x <== number p var1 ;; y <== number p var2 ;;
  '(x', y') <== lift (osl_int_swap p x y) ;;
  renumber p var1 x' ;;== renumber p var2 y'.
(** source/int.c:591-598 osl_int_set_precision *)
Definition osl_int_set_precision_m (p new : Z) (i : addr) : oprog unit :=
  if Z.eqb p new then ret tt
  else x <== number p i ;; v <== lift (osl_int_get_si p x) ;;
       osl_int_clear_m p i ;;== osl_int_init_set_si_m new i v.

(** ** Vectors *)
(** source/vector.c:148-163 osl_vector_pmalloc *)
Definition osl_vector_pmalloc_m (p size : Z) : oprog ptr :=
  vector <== malloc (BVector size p NULL) ;;
  if Z.eqb size 0 then ret vector
  else if Z.ltb size 0 then lift Err
  else v <== new_cells size ;; put vector (BVector size p v) ;;==
       zfor 0 size (λ i, osl_int_init_set_si_m p (v, i) 0) ;;== ret vector.
(** source/vector.c:185-196 osl_vector_free *)
Definition osl_vector_free_m (vector : ptr) : oprog unit :=
  if isnull vector then ret tt
  else '(n, p, v) <== get_vector vector ;;
       (if isnull v then ret tt else zfor 0 n (λ i, osl_int_clear_m p (v, i)) ;;== free v) ;;==
       free vector.
(** source/vector.c:212-229 osl_vector_add_scalar *)
Definition osl_vector_add_scalar_m (vector : ptr) (scalar : Z) : oprog ptr :=
  if isnull vector then lift Err
  else '(n, p, v) <== get_vector vector ;;
       if Z.ltb n 2 then lift Err
       else result <== osl_vector_pmalloc_m p n ;;
            '(_, _, w) <== get_vector result ;;
            zfor 0 n (λ i, osl_int_assign_m p (w, i) (v, i)) ;;==
            int_op_si_m osl_int_add_si p (w, n - 1)%Z (v, n - 1)%Z scalar ;;==
            ret result.
Definition vector_zip_m (op : Z → Z → Z → res Z) (v1 v2 : ptr) : oprog ptr :=
  if isnull v1 || isnull v2 then lift Err
  else '(n1, p1, a1) <== get_vector v1 ;; '(n2, p2, a2) <== get_vector v2 ;;
       if negb (Z.eqb n1 n2) || negb (Z.eqb p1 p2) then lift Err
       else v3 <== osl_vector_pmalloc_m p1 n1 ;;
            '(_, _, a3) <== get_vector v3 ;;
            zfor 0 n1 (λ i, int_op_m op p1 (a3, i) (a1, i) (a2, i)) ;;==
            ret v3.
(** source/vector.c:240-253 osl_vector_add; source/vector.c:264-277 osl_vector_sub *)
Definition osl_vector_add_m := vector_zip_m osl_int_add.
Definition osl_vector_sub_m := vector_zip_m osl_int_sub.
Definition vector_tag_m (tag : Z) (vector : ptr) : oprog unit :=
  if isnull vector then lift Err
  else '(n, p, v) <== get_vector vector ;;
       if Z.ltb n 1 then lift Err else osl_int_set_si_m p (v, 0%Z) tag.
(** source/vector.c:287-291 osl_vector_tag_inequality; source/vector.c:301-305 osl_vector_tag_equality *)
Definition osl_vector_tag_inequality_m := vector_tag_m 1.
Definition osl_vector_tag_equality_m := vector_tag_m 0.
(** source/vector.c:340-348 osl_vector_mul_scalar *)
Definition osl_vector_mul_scalar_m (vector : ptr) (scalar : Z) : oprog ptr :=
  '(n, p, v) <== get_vector vector ;;
  result <== osl_vector_pmalloc_m p n ;;
  '(_, _, w) <== get_vector result ;;
  zfor 0 n (λ i, int_op_si_m osl_int_mul_si p (w, i) (v, i) scalar) ;;==
  ret result.

(** ** Relations *)
Definition get_part (p : ptr) : oprog (relation * ptr * ptr) :=
  x <== get_block p ;; match x with BRel r m next => ret (r, m, next) | _ => lift UB end.
Definition set_part_next (p q : ptr) : oprog unit := '(r, m, _) <== get_part p ;; put p (BRel r m q).
(** What is written in the fields, the matrix apart *)
Definition head (type p rows cols o i l pa : Z) : relation := mkrel type p rows cols o i l pa [].
(** source/relation.c:1589-1630 osl_relation_pmalloc *)
Definition osl_relation_pmalloc_m (p nb_rows nb_columns : Z) : oprog ptr :=
  if negb (Z.eqb p PRECISION_SP) && negb (Z.eqb p PRECISION_DP) && negb (Z.eqb p PRECISION_MP) then lift Err
  else if Z.ltb nb_rows 0 || Z.ltb nb_columns 0 then lift Err
  else
    relation <== malloc (BRel (head UNDEFINED p nb_rows nb_columns UNDEFINED UNDEFINED UNDEFINED UNDEFINED) NULL NULL) ;;
    if Z.eqb nb_rows 0 || Z.eqb nb_columns 0 then ret relation
    else
      m <== malloc (BRows (repeat None (Z.to_nat nb_rows))) ;;
      q <== new_cells (nb_rows * nb_columns)%Z ;;
      put relation (BRel (head UNDEFINED p nb_rows nb_columns UNDEFINED UNDEFINED UNDEFINED UNDEFINED) m NULL) ;;==
      zfor 0 nb_rows (λ i,
        set_row m i (q, i * nb_columns)%Z ;;==
        zfor 0 nb_columns (λ j, a <== entry m i j ;; osl_int_init_set_si_m p a 0)) ;;==
      ret relation.
(** source/relation.c:1654-1670 osl_relation_free_inside *)
Definition osl_relation_free_inside_m (relation : ptr) : oprog unit :=
  if isnull relation then ret tt
  else
    '(r, m, _) <== get_part relation ;;
    let nb_elements := (nrows r * ncols r)%Z in
    zfor 0 nb_elements (λ i, a <== entry m 0 i ;; osl_int_clear_m (rprec r) a) ;;==
    if isnull m then ret tt
    else (if Z.ltb 0 nb_elements
          then a <== row_at m 0 ;; if Z.eqb (snd a) 0 then free (fst a) else lift UB
          else ret tt) ;;==
         free m.
Fixpoint part_free_loop (fuel : nat) (relation : ptr) : oprog unit :=
  match fuel with
  | O => lift OutOfFuel
  | S f =>
      if isnull relation then ret tt
      else '(_, _, tmp) <== get_part relation ;;
           osl_relation_free_inside_m relation ;;== free relation ;;==
           part_free_loop f tmp
  end.
(** source/relation.c:1678-1687 osl_relation_free *)
Definition osl_relation_free_m (relation : ptr) : oprog unit := loop (λ n, part_free_loop n relation).
Fixpoint parts_loop (fuel : nat) (relation : ptr) : oprog Z :=
  match fuel with
  | O => lift OutOfFuel
  | S f => if isnull relation then ret 0%Z else '(_, _, next) <== get_part relation ;; n <== parts_loop f next ;; ret (1 + n)%Z
  end.
(** source/relation.c:766-775 osl_relation_nb_components *)
Definition osl_relation_nb_components_m (relation : ptr) : oprog Z := loop (λ n, parts_loop n relation).
(** osl_int_assign(p, &dst[di][dj], src[si][sj]) *)
Definition copy_m (p : Z) (src : ptr) (si sj : Z) (dst : ptr) (di dj : Z) : oprog unit :=
  a <== entry dst di dj ;; b <== entry src si sj ;; osl_int_assign_m p a b.
(** One iteration of source/relation.c:1703-1739 osl_relation_nclone (with [n] rows, of
    source/relation.c:1753-1793 osl_relation_clone_nconstraints) *)
Definition clone_part_m (relation : ptr) (n : Z) : oprog ptr :=
  '(r, m, _) <== get_part relation ;;
  node <== osl_relation_pmalloc_m (rprec r) n (ncols r) ;;
  '(s, mn, _) <== get_part node ;;
  put node (BRel (head (rtype r) (rprec s) (nrows s) (ncols s) (nout r) (nin r) (nloc r) (npar r)) mn NULL) ;;==
  zfor 0 n (λ i, zfor 0 (ncols r) (λ j, copy_m (rprec r) m i j mn i j)) ;;==
  ret node.
Fixpoint nclone_loop_m (k : nat) (relation : ptr) (first : bool) (clone previous : ptr) : oprog ptr :=
  match k with
  | O => ret clone
  | S k' =>
      '(r, _, next) <== get_part relation ;;
      node <== clone_part_m relation (nrows r) ;;
      if first then nclone_loop_m k' next false node node
      else set_part_next previous node ;;== nclone_loop_m k' next false clone node
  end.
(** source/relation.c:1703-1739 osl_relation_nclone *)
Definition osl_relation_nclone_m (relation : ptr) (n : Z) : oprog ptr :=
  nb_components <== osl_relation_nb_components_m relation ;;
  let nb_parts := if Z.eqb n (-1) then nb_components else n in
  if Z.ltb nb_components nb_parts then lift Err
  else nclone_loop_m (Z.to_nat nb_parts) relation true NULL NULL.
(** source/relation.c:1802-1807 osl_relation_clone *)
Definition osl_relation_clone_m (relation : ptr) : oprog ptr :=
  if isnull relation then ret NULL else osl_relation_nclone_m relation (-1).
(** source/relation.c:1856-1868 osl_relation_replace_vector *)
Definition osl_relation_replace_vector_m (relation vector : ptr) (row : Z) : oprog unit :=
  if isnull relation || isnull vector then lift Err
  else
    '(r, m, _) <== get_part relation ;; '(n, p, v) <== get_vector vector ;;
    if negb (Z.eqb (rprec r) p) || negb (Z.eqb (ncols r) n) || Z.leb (nrows r) row || Z.ltb row 0 then lift Err
    else zfor 0 n (λ i, a <== entry m row i ;; osl_int_assign_m (rprec r) a (v, i)).
Definition combine_vector_m (op : Z → Z → Z → res Z) (relation vector : ptr) (row : Z) : oprog unit :=
  if isnull relation || isnull vector then lift Err
  else
    '(r, m, _) <== get_part relation ;; '(n, p, v) <== get_vector vector ;;
    if negb (Z.eqb (rprec r) p) || negb (Z.eqb (ncols r) n) || Z.leb (nrows r) row || Z.ltb row 0 then lift Err
    else
      a <== entry m row 0 ;; x <== number (rprec r) a ;; tag <== lift (osl_int_get_si (rprec r) x) ;;
      (if Z.eqb tag 0 then a <== entry m row 0 ;; osl_int_assign_m (rprec r) a (v, 0%Z) else ret tt) ;;==
      zfor 1 n (λ i, a <== entry m row i ;; int_op_m op (rprec r) a a (v, i)).
(** source/relation.c:1879-1895 osl_relation_add_vector; source/relation.c:1906-1922 osl_relation_sub_vector *)
Definition osl_relation_add_vector_m := combine_vector_m osl_int_add.
Definition osl_relation_sub_vector_m := combine_vector_m osl_int_sub.
(** source/relation.c:2033-2042 osl_relation_from_vector *)
Definition osl_relation_from_vector_m (vector : ptr) : oprog ptr :=
  if isnull vector then ret NULL
  else '(n, p, _) <== get_vector vector ;;
       relation <== osl_relation_pmalloc_m p 1 n ;;
       osl_relation_replace_vector_m relation vector 0 ;;== ret relation.
(** source/relation.c:2053-2065 osl_relation_replace_constraints *)
Definition osl_relation_replace_constraints_m (r1 r2 : ptr) (row : Z) : oprog unit :=
  if isnull r1 || isnull r2 then lift Err
  else
    '(a, m1, _) <== get_part r1 ;; '(b, m2, _) <== get_part r2 ;;
    if negb (Z.eqb (rprec a) (rprec b)) || negb (Z.eqb (ncols a) (ncols b)) || Z.ltb (nrows a) (row + nrows b) || Z.ltb row 0
    then lift Err
    else zfor 0 (nrows b) (λ i, zfor 0 (ncols b) (λ j, copy_m (rprec a) m2 i j m1 (i + row) j)).
(** The end of the functions that change the size of a matrix: the inside of [relation] is freed and
    replaced by the one of [temp], of which only the shell is freed. *)
Definition replace_inside (relation temp : ptr) (rows cols : Z) : oprog unit :=
  osl_relation_free_inside_m relation ;;==
  '(r, _, next) <== get_part relation ;; '(_, m, _) <== get_part temp ;;
  put relation (BRel (with_m r rows cols []) m next) ;;==
  free temp.
(** source/relation.c:2079-2116 osl_relation_insert_constraints *)
Definition osl_relation_insert_constraints_m (r1 r2 : ptr) (row0 : Z) : oprog unit :=
  if isnull r1 || isnull r2 then ret tt
  else
    '(a, m1, _) <== get_part r1 ;; '(b, _, _) <== get_part r2 ;;
    let row := if Z.eqb row0 (-1) then nrows a else row0 in
    if negb (Z.eqb (ncols a) (ncols b)) || negb (Z.eqb (rprec a) (rprec b)) || Z.ltb (nrows a) row || Z.ltb row 0 then lift Err
    else
      temp <== osl_relation_pmalloc_m (rprec a) (nrows a + nrows b) (ncols a) ;;
      '(t, mt, _) <== get_part temp ;;
      zfor 0 row (λ i, zfor 0 (ncols a) (λ j, copy_m (rprec a) m1 i j mt i j)) ;;==
      osl_relation_replace_constraints_m temp r2 row ;;==
      zfor (row + nrows b) (nrows b + nrows a) (λ i,
        zfor 0 (ncols a) (λ j, copy_m (rprec a) m1 (i - nrows b) j mt i j)) ;;==
      replace_inside r1 temp (nrows t) (ncols a).
(** source/relation.c:1937-1944 osl_relation_insert_vector *)
Definition osl_relation_insert_vector_m (relation vector : ptr) (row : Z) : oprog unit :=
  temp <== osl_relation_from_vector_m vector ;;
  osl_relation_insert_constraints_m relation temp row ;;==
  osl_relation_free_m temp.
(** source/relation.c:1974-1982 osl_relation_insert_blank_row *)
Definition osl_relation_insert_blank_row_m (relation : ptr) (row : Z) : oprog unit :=
  if isnull relation then ret tt
  else '(r, _, _) <== get_part relation ;;
       vector <== osl_vector_pmalloc_m (rprec r) (ncols r) ;;
       osl_relation_insert_vector_m relation vector row ;;==
       osl_vector_free_m vector.
(** source/relation.c:1992-2024 osl_relation_insert_blank_column *)
Definition osl_relation_insert_blank_column_m (relation : ptr) (column : Z) : oprog unit :=
  if isnull relation then ret tt
  else
    '(r, m, _) <== get_part relation ;;
    if Z.ltb column 0 || Z.ltb (ncols r) column then lift Err
    else
      temp <== osl_relation_pmalloc_m (rprec r) (nrows r) (ncols r + 1) ;;
      '(t, mt, _) <== get_part temp ;;
      zfor 0 (nrows r) (λ i,
        zfor 0 column (λ j, copy_m (rprec r) m i j mt i j) ;;==
        zfor column (ncols r) (λ j, copy_m (rprec r) m i j mt i (j + 1))) ;;==
      replace_inside relation temp (nrows r) (ncols t).
(** source/relation.c:2126-2138 osl_relation_swap_constraints *)
Definition osl_relation_swap_constraints_m (relation : ptr) (c1 c2 : Z) : oprog unit :=
  if isnull relation || Z.eqb c1 c2 then ret tt
  else
    '(r, m, _) <== get_part relation ;;
    if Z.leb (nrows r) c1 || Z.ltb c1 0 || Z.leb (nrows r) c2 || Z.ltb c2 0 then lift Err
    else zfor 0 (ncols r) (λ i, a <== entry m c1 i ;; b <== entry m c2 i ;; osl_int_swap_m (rprec r) a b).
(** source/relation.c:2147-2176 osl_relation_remove_row *)
Definition osl_relation_remove_row_m (relation : ptr) (row : Z) : oprog unit :=
  if isnull relation then ret tt
  else
    '(r, m, _) <== get_part relation ;;
    if Z.ltb row 0 || Z.leb (nrows r) row then lift Err
    else
      temp <== osl_relation_pmalloc_m (rprec r) (nrows r - 1) (ncols r) ;;
      '(t, mt, _) <== get_part temp ;;
      zfor 0 row (λ i, zfor 0 (ncols r) (λ j, copy_m (rprec r) m i j mt i j)) ;;==
      zfor (row + 1) (nrows r) (λ i, zfor 0 (ncols r) (λ j, copy_m (rprec r) m i j mt (i - 1) j)) ;;==
      replace_inside relation temp (nrows t) (ncols r).
(** source/relation.c:2185-2214 osl_relation_remove_column *)
Definition osl_relation_remove_column_m (relation : ptr) (column : Z) : oprog unit :=
  if isnull relation then ret tt
  else
    '(r, m, _) <== get_part relation ;;
    if Z.ltb column 0 || Z.leb (ncols r) column then lift Err
    else
      temp <== osl_relation_pmalloc_m (rprec r) (nrows r) (ncols r - 1) ;;
      '(t, mt, _) <== get_part temp ;;
      zfor 0 (nrows r) (λ i,
        zfor 0 column (λ j, copy_m (rprec r) m i j mt i j) ;;==
        zfor (column + 1) (ncols r) (λ j, copy_m (rprec r) m i j mt i (j - 1))) ;;==
      replace_inside relation temp (nrows r) (ncols t).
(** source/relation.c:2227-2267 osl_relation_insert_columns *)
Definition osl_relation_insert_columns_m (relation insert : ptr) (column : Z) : oprog unit :=
  if isnull relation || isnull insert then ret tt
  else
    '(r, m, _) <== get_part relation ;; '(s, mi, _) <== get_part insert ;;
    if negb (Z.eqb (rprec r) (rprec s)) || negb (Z.eqb (nrows r) (nrows s)) || Z.ltb column 0 || Z.ltb (ncols r) column then lift Err
    else
      temp <== osl_relation_pmalloc_m (rprec r) (nrows r) (ncols r + ncols s) ;;
      '(t, mt, _) <== get_part temp ;;
      zfor 0 (nrows r) (λ i,
        zfor 0 column (λ j, copy_m (rprec r) m i j mt i j) ;;==
        zfor column (column + ncols s) (λ j, copy_m (rprec r) mi i (j - column) mt i j) ;;==
        zfor (column + ncols s) (ncols s + ncols r) (λ j, copy_m (rprec r) m i (j - ncols s) mt i j)) ;;==
      replace_inside relation temp (nrows r) (ncols t).
(** source/relation.c:2280-2304 osl_relation_concat_constraints *)
Definition osl_relation_concat_constraints_m (r1 r2 : ptr) : oprog ptr :=
  if isnull r1 then osl_relation_clone_m r2
  else if isnull r2 then osl_relation_clone_m r1
  else
    '(a, _, _) <== get_part r1 ;; '(b, _, _) <== get_part r2 ;;
    if negb (Z.eqb (ncols a) (ncols b)) then lift Err
    else
      new <== osl_relation_pmalloc_m (rprec a) (nrows a + nrows b) (ncols a) ;;
      osl_relation_replace_constraints_m new r1 0 ;;==
      osl_relation_replace_constraints_m new r2 (nrows a) ;;==
      ret new.
(** source/relation.c:1957-1965 osl_relation_concat_vector *)
Definition osl_relation_concat_vector_m (relation vector : ptr) : oprog ptr :=
  temp <== osl_relation_from_vector_m vector ;;
  new <== osl_relation_concat_constraints_m relation temp ;;
  osl_relation_free_m temp ;;==
  ret new.
(** source/relation.c:2315-2339 osl_relation_part_equal *)
Definition osl_relation_part_equal_m (r1 r2 : ptr) : oprog bool :=
  if Z.eqb r1 r2 then ret true
  else if (isnull r1 && negb (isnull r2)) || (negb (isnull r1) && isnull r2) then ret false
  else
    '(a, m1, _) <== get_part r1 ;; '(b, m2, _) <== get_part r2 ;;
    if negb (Z.eqb (rtype a) (rtype b)) || negb (Z.eqb (rprec a) (rprec b)) || negb (Z.eqb (nrows a) (nrows b))
       || negb (Z.eqb (ncols a) (ncols b)) || negb (Z.eqb (nout a) (nout b)) || negb (Z.eqb (nin a) (nin b))
       || negb (Z.eqb (nloc a) (nloc b)) || negb (Z.eqb (npar a) (npar b))
    then ret false
    else zall 0 (nrows a) (λ i, zall 0 (ncols a) (λ j,
           p <== entry m1 i j ;; q <== entry m2 i j ;;
           x <== number (rprec a) p ;; y <== number (rprec a) q ;;
           ne <== lift (osl_int_ne (rprec a) x y) ;; ret (negb ne))).
Fixpoint equal_loop (fuel : nat) (r1 r2 : ptr) : oprog bool :=
  match fuel with
  | O => lift OutOfFuel
  | S f =>
      if isnull r1 || isnull r2 then ret (isnull r1 && isnull r2)
      else b <== osl_relation_part_equal_m r1 r2 ;;
           if b then '(_, _, n1) <== get_part r1 ;; '(_, _, n2) <== get_part r2 ;; equal_loop f n1 n2
           else ret false
  end.
(** source/relation.c:2349-2362 osl_relation_equal *)
Definition osl_relation_equal_m (r1 r2 : ptr) : oprog bool := loop (λ n, equal_loop n r1 r2).
(** One iteration of source/relation.c:2823-2877 osl_relation_extend_output *)
Definition extend_part_m (precision : Z) (relation : ptr) (dim : Z) : oprog ptr :=
  '(r, m, _) <== get_part relation ;;
  if Z.ltb dim (nout r) then lift Err
  else
    let offset := (dim - nout r)%Z in
    node <== osl_relation_pmalloc_m precision (nrows r + offset) (ncols r + offset) ;;
    '(s, mn, _) <== get_part node ;;
    put node (BRel (head (rtype r) (rprec s) (nrows s) (ncols s) (Z.max (nout r) dim) (nin r) (nloc r) (npar r)) mn NULL) ;;==
    zfor 0 (nrows r) (λ i,
      zfor 0 (nout r + 1) (λ j, copy_m precision m i j mn i j) ;;==
      zfor (nout r + offset + 1) (ncols r + offset) (λ j, copy_m precision m i (j - offset) mn i j)) ;;==
    zfor (nrows r) (nrows r + offset) (λ i, zfor 0 (ncols r + offset) (λ j,
      if Z.eqb (i - nrows r) (j - nout r - 1) then a <== entry mn i j ;; osl_int_set_si_m precision a (-1) else ret tt)) ;;==
    ret node.
Fixpoint extend_loop (fuel : nat) (precision : Z) (relation : ptr) (dim : Z) (first : bool) (extended previous : ptr) : oprog ptr :=
  match fuel with
  | O => lift OutOfFuel
  | S f =>
      if isnull relation then ret extended
      else node <== extend_part_m precision relation dim ;;
           '(_, _, next) <== get_part relation ;;
           if first then extend_loop f precision next dim false node node
           else set_part_next previous node ;;== extend_loop f precision next dim false extended node
  end.
(** source/relation.c:2823-2877 osl_relation_extend_output *)
Definition osl_relation_extend_output_m (relation : ptr) (dim : Z) : oprog ptr :=
  '(r, _, _) <== get_part relation ;; loop (λ n, extend_loop n (rprec r) relation dim true NULL NULL).
Fixpoint set_precision_loop (fuel : nat) (precision : Z) (r : ptr) : oprog unit :=
  match fuel with
  | O => lift OutOfFuel
  | S f =>
      if isnull r then ret tt
      else '(x, m, next) <== get_part r ;;
           (if Z.eqb precision (rprec x) then ret tt
            else zfor 0 (nrows x) (λ i, zfor 0 (ncols x) (λ j, a <== entry m i j ;; osl_int_set_precision_m (rprec x) precision a)) ;;==
                 put r (BRel (with_prec x precision []) m next)) ;;==
           set_precision_loop f precision next
  end.
(** source/relation.c:2906-2920 osl_relation_set_precision *)
Definition osl_relation_set_precision_m (precision : Z) (r : ptr) : oprog unit := loop (λ n, set_precision_loop n precision r).
(** source/relation.c:2929-2941 osl_relation_set_same_precision *)
Definition osl_relation_set_same_precision_m (a b : ptr) : oprog unit :=
  if isnull a || isnull b then ret tt
  else '(x, _, _) <== get_part a ;; '(y, _, _) <== get_part b ;;
       if Z.eqb (rprec x) (rprec y) then ret tt
       else if Z.eqb (rprec x) PRECISION_MP || Z.eqb (rprec y) PRECISION_MP
            then osl_relation_set_precision_m PRECISION_MP a ;;== osl_relation_set_precision_m PRECISION_MP b
            else if Z.eqb (rprec x) PRECISION_DP || Z.eqb (rprec y) PRECISION_DP
            then osl_relation_set_precision_m PRECISION_DP a ;;== osl_relation_set_precision_m PRECISION_DP b
            else ret tt.
End MAT.
