(** * Model of source/relation.c, constraint-matrix part

    A relation part is a record; a relation (union) is the list of its parts
    in [next] order, [ [] ] being the NULL pointer.  The matrix is a list of
    rows, [ [] ] when [m] is NULL.  Functions that update the part they are
    given return the new part.  Sizes are C ints; nb_rows*nb_columns is assumed
    to stay below 2^31 (the C code multiplies them as int). *)
From Verif Require Import Base IntModel VectorModel.

(** include/osl/relation.h: struct osl_relation *)
Record relation := mkrel {
  rtype : Z; rprec : Z; nrows : Z; ncols : Z;
  nout : Z; nin : Z; nloc : Z; npar : Z;
  rm : list (list Z) }.

Definition with_m (r : relation) (rows cols : Z) (m : list (list Z)) : relation :=
  mkrel (rtype r) (rprec r) rows cols (nout r) (nin r) (nloc r) (npar r) m.
Definition with_type (r : relation) (t : Z) : relation :=
  mkrel t (rprec r) (nrows r) (ncols r) (nout r) (nin r) (nloc r) (npar r) (rm r).
Definition with_attrs (r : relation) (o i l p : Z) : relation :=
  mkrel (rtype r) (rprec r) (nrows r) (ncols r) o i l p (rm r).
Definition with_prec (r : relation) (p : Z) (m : list (list Z)) : relation :=
  mkrel (rtype r) p (nrows r) (ncols r) (nout r) (nin r) (nloc r) (npar r) m.

Section RELATION.
Context {cfg : config}.

(** source/relation.c:766-775 osl_relation_nb_components *)
Fixpoint osl_relation_nb_components (r : list relation) : Z :=
  match r with [] => 0 | _ :: tl => 1 + osl_relation_nb_components tl end.

(** source/relation.c:1589-1630 osl_relation_pmalloc *)
Definition osl_relation_pmalloc (p rows cols : Z) : res relation :=
  if negb (p =? PRECISION_SP) && negb (p =? PRECISION_DP) && negb (p =? PRECISION_MP) then Err
  else if (rows <? 0) || (cols <? 0) then Err
  else
    m <- (if (rows =? 0) || (cols =? 0) then Ok []
          else cfor 0 rows (fun i m =>
                 cfor 0 cols (fun j m =>
                   x <- osl_int_init_set_si p 0 ;; mset m i j x) m)
                 (repeat (repeat POISON (Z.to_nat cols)) (Z.to_nat rows))) ;;
    Ok (mkrel UNDEFINED p rows cols UNDEFINED UNDEFINED UNDEFINED UNDEFINED m).

(** osl_int_assign(p, &dst[di][dj], src[si][sj]) *)
Definition copy_cell (p : Z) (src : list (list Z)) (si sj : Z)
  (dst : list (list Z)) (di dj : Z) : res (list (list Z)) :=
  x <- mget src si sj ;; y <- osl_int_assign p x ;; mset dst di dj y.

(** One iteration of the loop of source/relation.c:1703-1739 osl_relation_nclone (and, with [n] rows,
    of osl_relation_clone_nconstraints): hard copy of the first [n] rows. *)
Definition clone_part (r : relation) (n : Z) : res relation :=
  node <- osl_relation_pmalloc (rprec r) n (ncols r) ;;
  m <- cfor 0 n (fun i m =>
         cfor 0 (ncols r) (fun j m => copy_cell (rprec r) (rm r) i j m i j) m)
         (rm node) ;;
  Ok (mkrel (rtype r) (rprec node) (nrows node) (ncols node)
        (nout r) (nin r) (nloc r) (npar r) m).

Fixpoint nclone_loop (k : nat) (r : list relation) : res (list relation) :=
  match k with
  | O => Ok []
  | S k' =>
      match r with
      | [] => UB (* relation->precision with relation == NULL *)
      | part :: next =>
          node <- clone_part part (nrows part) ;;
          rest <- nclone_loop k' next ;; Ok (node :: rest)
      end
  end.

(** source/relation.c:1703-1739 osl_relation_nclone *)
Definition osl_relation_nclone (r : list relation) (n : Z) : res (list relation) :=
  let nb_components := osl_relation_nb_components r in
  let nb_parts := if n =? -1 then nb_components else n in
  if nb_components <? nb_parts then Err
  else nclone_loop (Z.to_nat nb_parts) r.

(** source/relation.c:1753-1793 osl_relation_clone_nconstraints *)
Fixpoint osl_relation_clone_nconstraints (r : list relation) (n : Z) : res (list relation) :=
  match r with
  | [] => Ok []
  | part :: next =>
      let n' := if n =? -1 then nrows part else n in
      if nrows part <? n' then Err
      else node <- clone_part part n' ;;
           rest <- osl_relation_clone_nconstraints next n ;; Ok (node :: rest)
  end.

(** source/relation.c:1802-1807 osl_relation_clone *)
Definition osl_relation_clone (r : list relation) : res (list relation) :=
  match r with [] => Ok [] | _ => osl_relation_nclone r (-1) end.

(** source/relation.c:1818-1823 osl_relation_add: [r2] is linked after the last part of [*r1]. *)
Fixpoint osl_relation_add (r1 r2 : list relation) : list relation :=
  match r1 with [] => r2 | part :: next => part :: osl_relation_add next r2 end.

(** source/relation.c:1834-1845 osl_relation_union *)
Definition osl_relation_union (r1 r2 : list relation) : res (list relation) :=
  match r1, r2 with
  | [], [] => Ok []
  | _, _ => c1 <- osl_relation_clone r1 ;; c2 <- osl_relation_clone r2 ;;
            Ok (osl_relation_add c1 c2)
  end.

(** The guard shared by replace_vector, add_vector and sub_vector. *)
Definition vector_row_ok (r : relation) (v : vector) (row : Z) : bool :=
  (rprec r =? vprec v) && (ncols r =? vsize v) && (row <? nrows r) && (0 <=? row).

(** source/relation.c:1856-1868 osl_relation_replace_vector *)
Definition osl_relation_replace_vector (r : relation) (v : vector) (row : Z) : res relation :=
  if negb (vector_row_ok r v row) then Err
  else m <- cfor 0 (vsize v) (fun i m =>
              x <- aget (vv v) i ;; y <- osl_int_assign (rprec r) x ;; mset m row i y) (rm r) ;;
       Ok (with_m r (nrows r) (ncols r) m).

(** Common body of add_vector / sub_vector: the tag of an equality row is
    replaced by the tag of the vector, the other entries combined by [op]. *)
Definition combine_vector (op : Z -> Z -> Z -> res Z) (r : relation) (v : vector) (row : Z)
  : res relation :=
  if negb (vector_row_ok r v row) then Err
  else
    tag <- mget (rm r) row 0 ;;
    t <- osl_int_get_si (rprec r) tag ;;
    m <- (if t =? 0 then
            x <- aget (vv v) 0 ;; y <- osl_int_assign (rprec r) x ;; mset (rm r) row 0 y
          else Ok (rm r)) ;;
    m <- cfor 1 (vsize v) (fun i m =>
           a <- mget m row i ;; b <- aget (vv v) i ;;
           y <- op (rprec r) a b ;; mset m row i y) m ;;
    Ok (with_m r (nrows r) (ncols r) m).

(** source/relation.c:1879-1895 osl_relation_add_vector *)
Definition osl_relation_add_vector := combine_vector osl_int_add.
(** source/relation.c:1906-1922 osl_relation_sub_vector *)
Definition osl_relation_sub_vector := combine_vector osl_int_sub.

(** source/relation.c:2033-2042 osl_relation_from_vector (non-NULL vector) *)
Definition osl_relation_from_vector (v : vector) : res relation :=
  r <- osl_relation_pmalloc (vprec v) 1 (vsize v) ;; osl_relation_replace_vector r v 0.

(** source/relation.c:2053-2065 osl_relation_replace_constraints (non-NULL arguments; NULL is an error) *)
Definition osl_relation_replace_constraints (r1 r2 : relation) (row : Z) : res relation :=
  if negb (rprec r1 =? rprec r2) || negb (ncols r1 =? ncols r2)
     || (nrows r1 <? row + nrows r2) || (row <? 0)
  then Err
  else m <- cfor 0 (nrows r2) (fun i m =>
              cfor 0 (ncols r2) (fun j m => copy_cell (rprec r1) (rm r2) i j m (i + row) j) m)
              (rm r1) ;;
       Ok (with_m r1 (nrows r1) (ncols r1) m).

(** source/relation.c:2079-2116 osl_relation_insert_constraints on non-NULL parts (a NULL argument
    leaves the relation unmodified, see [osl_relation_insert_constraints_p]). *)
Definition osl_relation_insert_constraints (r1 r2 : relation) (row0 : Z) : res relation :=
  let row := if row0 =? -1 then nrows r1 else row0 in
  if negb (ncols r1 =? ncols r2) || negb (rprec r1 =? rprec r2)
     || (nrows r1 <? row) || (row <? 0)
  then Err
  else
    temp <- osl_relation_pmalloc (rprec r1) (nrows r1 + nrows r2) (ncols r1) ;;
    m <- cfor 0 row (fun i m =>
           cfor 0 (ncols r1) (fun j m => copy_cell (rprec r1) (rm r1) i j m i j) m) (rm temp) ;;
    temp <- osl_relation_replace_constraints (with_m temp (nrows temp) (ncols temp) m) r2 row ;;
    m <- cfor (row + nrows r2) (nrows r2 + nrows r1) (fun i m =>
           cfor 0 (ncols r1) (fun j m =>
             copy_cell (rprec r1) (rm r1) (i - nrows r2) j m i j) m) (rm temp) ;;
    Ok (with_m r1 (nrows temp) (ncols r1) m).

(** The same on possibly-NULL unions: only the first part is concerned. *)
Definition osl_relation_insert_constraints_p (r1 r2 : list relation) (row : Z)
  : res (list relation) :=
  match r1, r2 with
  | p1 :: n1, p2 :: _ => p <- osl_relation_insert_constraints p1 p2 row ;; Ok (p :: n1)
  | _, _ => Ok r1
  end.

(** source/relation.c:1937-1944 osl_relation_insert_vector *)
Definition osl_relation_insert_vector (r : relation) (v : vector) (row : Z) : res relation :=
  temp <- osl_relation_from_vector v ;; osl_relation_insert_constraints r temp row.

(** source/relation.c:1974-1982 osl_relation_insert_blank_row *)
Definition osl_relation_insert_blank_row (r : relation) (row : Z) : res relation :=
  v <- osl_vector_pmalloc (rprec r) (ncols r) ;; osl_relation_insert_vector r v row.

(** source/relation.c:1992-2024 osl_relation_insert_blank_column *)
Definition osl_relation_insert_blank_column (r : relation) (column : Z) : res relation :=
  if (column <? 0) || (ncols r <? column) then Err
  else
    temp <- osl_relation_pmalloc (rprec r) (nrows r) (ncols r + 1) ;;
    m <- cfor 0 (nrows r) (fun i m =>
           m <- cfor 0 column (fun j m => copy_cell (rprec r) (rm r) i j m i j) m ;;
           cfor column (ncols r) (fun j m => copy_cell (rprec r) (rm r) i j m i (j + 1)) m)
           (rm temp) ;;
    Ok (with_m r (nrows r) (ncols temp) m).

(** source/relation.c:2126-2138 osl_relation_swap_constraints *)
Definition osl_relation_swap_constraints (r : relation) (c1 c2 : Z) : res relation :=
  if c1 =? c2 then Ok r
  else if (nrows r <=? c1) || (c1 <? 0) || (nrows r <=? c2) || (c2 <? 0) then Err
  else m <- cfor 0 (ncols r) (fun i m =>
              a <- mget m c1 i ;; b <- mget m c2 i ;;
              ' (a', b') <- osl_int_swap (rprec r) a b ;;
              m <- mset m c1 i a' ;; mset m c2 i b') (rm r) ;;
       Ok (with_m r (nrows r) (ncols r) m).

(** source/relation.c:2147-2176 osl_relation_remove_row *)
Definition osl_relation_remove_row (r : relation) (row : Z) : res relation :=
  if (row <? 0) || (nrows r <=? row) then Err
  else
    temp <- osl_relation_pmalloc (rprec r) (nrows r - 1) (ncols r) ;;
    m <- cfor 0 row (fun i m =>
           cfor 0 (ncols r) (fun j m => copy_cell (rprec r) (rm r) i j m i j) m) (rm temp) ;;
    m <- cfor (row + 1) (nrows r) (fun i m =>
           cfor 0 (ncols r) (fun j m => copy_cell (rprec r) (rm r) i j m (i - 1) j) m) m ;;
    Ok (with_m r (nrows temp) (ncols r) m).

(** source/relation.c:2185-2214 osl_relation_remove_column *)
Definition osl_relation_remove_column (r : relation) (column : Z) : res relation :=
  if (column <? 0) || (ncols r <=? column) then Err
  else
    temp <- osl_relation_pmalloc (rprec r) (nrows r) (ncols r - 1) ;;
    m <- cfor 0 (nrows r) (fun i m =>
           m <- cfor 0 column (fun j m => copy_cell (rprec r) (rm r) i j m i j) m ;;
           cfor (column + 1) (ncols r) (fun j m => copy_cell (rprec r) (rm r) i j m i (j - 1)) m)
           (rm temp) ;;
    Ok (with_m r (nrows r) (ncols temp) m).

(** source/relation.c:2227-2267 osl_relation_insert_columns *)
Definition osl_relation_insert_columns (r ins : relation) (column : Z) : res relation :=
  if negb (rprec r =? rprec ins) || negb (nrows r =? nrows ins)
     || (column <? 0) || (ncols r <? column)
  then Err
  else
    temp <- osl_relation_pmalloc (rprec r) (nrows r) (ncols r + ncols ins) ;;
    m <- cfor 0 (nrows r) (fun i m =>
           m <- cfor 0 column (fun j m => copy_cell (rprec r) (rm r) i j m i j) m ;;
           m <- cfor column (column + ncols ins) (fun j m =>
                  copy_cell (rprec r) (rm ins) i (j - column) m i j) m ;;
           cfor (column + ncols ins) (ncols ins + ncols r) (fun j m =>
                  copy_cell (rprec r) (rm r) i (j - ncols ins) m i j) m)
           (rm temp) ;;
    Ok (with_m r (nrows r) (ncols temp) m).

(** source/relation.c:2280-2304 osl_relation_concat_constraints: on the first parts only; the result is
    a fresh relation whose type and attributes stay OSL_UNDEFINED. *)
Definition osl_relation_concat_constraints (r1 r2 : list relation) : res (list relation) :=
  match r1, r2 with
  | [], _ => osl_relation_clone r2
  | _, [] => osl_relation_clone r1
  | p1 :: _, p2 :: _ =>
      if negb (ncols p1 =? ncols p2) then Err
      else new <- osl_relation_pmalloc (rprec p1) (nrows p1 + nrows p2) (ncols p1) ;;
           new <- osl_relation_replace_constraints new p1 0 ;;
           new <- osl_relation_replace_constraints new p2 (nrows p1) ;;
           Ok [new]
  end.

(** source/relation.c:1957-1965 osl_relation_concat_vector *)
Definition osl_relation_concat_vector (r : list relation) (ov : option vector)
  : res (list relation) :=
  match ov with
  | None => osl_relation_concat_constraints r []
  | Some v => temp <- osl_relation_from_vector v ;; osl_relation_concat_constraints r [temp]
  end.

(** source/relation.c:2315-2339 osl_relation_part_equal on non-NULL parts; the pointer shortcut
    [r1 == r2] is subsumed by comparing contents. *)
Definition osl_relation_part_equal (r1 r2 : relation) : res bool :=
  if negb (rtype r1 =? rtype r2) || negb (rprec r1 =? rprec r2)
     || negb (nrows r1 =? nrows r2) || negb (ncols r1 =? ncols r2)
     || negb (nout r1 =? nout r2) || negb (nin r1 =? nin r2)
     || negb (nloc r1 =? nloc r2) || negb (npar r1 =? npar r2)
  then Ok false
  else cforall 0 (nrows r1) (fun i => cforall 0 (ncols r1) (fun j =>
         a <- mget (rm r1) i j ;; b <- mget (rm r2) i j ;;
         ne <- osl_int_ne (rprec r1) a b ;; Ok (negb ne))).

(** source/relation.c:2349-2362 osl_relation_equal *)
Fixpoint osl_relation_equal (r1 r2 : list relation) : res bool :=
  match r1, r2 with
  | p1 :: n1, p2 :: n2 =>
      e <- osl_relation_part_equal p1 p2 ;; if e then osl_relation_equal n1 n2 else Ok false
  | [], [] => Ok true
  | _, _ => Ok false
  end.

(** source/relation.c:2377-2388 osl_relation_check_attribute: (verdict, new value of *expected) *)
Definition osl_relation_check_attribute (expected actual : Z) : bool * Z :=
  if negb (expected =? UNDEFINED) then
    if negb (actual =? UNDEFINED) && negb (actual =? expected)
    then (false, expected) else (true, expected)
  else (true, actual).

(** source/relation.c:2403-2427 osl_relation_check_nb_columns *)
Definition osl_relation_check_nb_columns (r : relation) (eo ei ep : Z) : bool :=
  if negb (eo =? UNDEFINED) && negb (ei =? UNDEFINED) && negb (ep =? UNDEFINED) then
    let el := if nloc r =? UNDEFINED then 0 else nloc r in
    (eo + ei + el + ep + 2 =? ncols r)
  else true.

(** source/relation.c:2712-2722 osl_relation_is_access *)
Definition osl_relation_is_access (r : relation) : bool :=
  (rtype r =? TYPE_ACCESS) || (rtype r =? TYPE_READ)
  || (rtype r =? TYPE_WRITE) || (rtype r =? TYPE_MAY_WRITE).

(** First loop of osl_relation_get_array_id: (nb_array_id, row_id). *)
Definition array_id_rows (r : relation) (row_id : Z) : res (Z * Z) :=
  cfor 0 (nrows r) (fun i s =>
    x <- mget (rm r) i 1 ;; z <- osl_int_zero (rprec r) x ;;
    if negb z then Ok (fst s + 1, i) else Ok s) (0, row_id).

(** One iteration of the while loop of source/relation.c:2619-2703 osl_relation_get_array_id:
    [Ok None] is "return OSL_UNDEFINED", [Ok (Some id)] the identifier found.
    [-osl_int_get_si(...)] and [/=] are int operations. *)
Definition part_array_id (r : relation) : res (option Z) :=
  if (nrows r <? 1) || (ncols r <? 3) then Ok None
  else
    ' (nb, row) <- array_id_rows r 0 ;;
    if nb =? 0 then Ok None
    else if 1 <? nb then Ok None
    else
      ok <- cforall 0 (ncols r - 1) (fun i =>
              if negb (i =? 1) then x <- mget (rm r) row i ;; osl_int_zero (rprec r) x
              else Ok true) ;;
      if negb ok then Ok None
      else
        c <- mget (rm r) row (ncols r - 1) ;;
        a <- mget (rm r) row 1 ;;
        d <- osl_int_divisible (rprec r) c a ;;
        if negb d then Ok None
        else
          cs <- osl_int_get_si (rprec r) c ;;
          n <- c_neg 32 cs ;;
          asi <- osl_int_get_si (rprec r) a ;;
          id <- c_div 32 n asi ;;
          if id <=? 0 then Ok None else Ok (Some id).

Fixpoint array_id_loop (r : list relation) (ref : option Z) (last : Z) : res Z :=
  match r with
  | [] => Ok last
  | part :: next =>
      o <- part_array_id part ;;
      match o with
      | None => Ok UNDEFINED
      | Some id =>
          match ref with
          | None => array_id_loop next (Some id) id
          | Some ref_id => if negb (ref_id =? id) then Ok UNDEFINED
                           else array_id_loop next ref id
          end
      end
  end.

(** source/relation.c:2619-2703 osl_relation_get_array_id.  Simplification: [row_id] is not carried from
    one part to the next (it is only used after having been set in the part). *)
Definition osl_relation_get_array_id (r : list relation) : res Z :=
  match r with
  | [] => Ok UNDEFINED
  | part :: _ => if negb (osl_relation_is_access part) then Ok UNDEFINED
                 else array_id_loop r None UNDEFINED
  end.

(** Body of the while loop of source/relation.c:2443-2554 osl_relation_integrity_check *)
Definition integrity_part (r : list relation) (part : relation) (eo ei ep : Z) : res bool :=
  if negb (eo =? nout part) || negb (ei =? nin part) || negb (ep =? npar part) then Ok false
  else if negb (osl_relation_check_nb_columns part eo ei ep) then Ok false
  else
    tags <- (if (0 <? nrows part) && (0 <? ncols part) then
               cforall 0 (nrows part) (fun i =>
                 x <- mget (rm part) i 0 ;;
                 z <- osl_int_zero (rprec part) x ;;
                 if z then Ok true else osl_int_one (rprec part) x)
             else Ok true) ;;
    if negb tags then Ok false
    else if osl_relation_is_access part then
      id <- osl_relation_get_array_id r ;; Ok (negb (id =? UNDEFINED))
    else Ok true.

Fixpoint integrity_loop (r : list relation) (eo ei ep : Z) : res bool :=
  match r with
  | [] => Ok true
  | part :: next =>
      b <- integrity_part r part eo ei ep ;;
      if b then integrity_loop next eo ei ep else Ok false
  end.

(** source/relation.c:2443-2554 osl_relation_integrity_check (warnings and dumps are not modelled) *)
Definition osl_relation_integrity_check (r : list relation) (etype eo ei ep : Z) : res bool :=
  match r with
  | [] => Ok true
  | part :: _ =>
      if (negb (etype =? TYPE_ACCESS) && negb (etype =? rtype part))
         || ((etype =? TYPE_ACCESS) && negb (osl_relation_is_access part)) then Ok false
      else if (nout part =? UNDEFINED) || (nin part =? UNDEFINED)
              || (nloc part =? UNDEFINED) || (npar part =? UNDEFINED) then Ok false
      else if (rtype part =? TYPE_CONTEXT) && negb (nout part =? 0) then Ok false
      else if ((rtype part =? TYPE_DOMAIN) || (rtype part =? TYPE_CONTEXT))
              && negb (nin part =? 0) then Ok false
      else
        let '(ok1, eo') := osl_relation_check_attribute eo (nout part) in
        if negb ok1 then Ok false else
        let '(ok2, ei') := osl_relation_check_attribute ei (nin part) in
        if negb ok2 then Ok false else
        let '(ok3, ep') := osl_relation_check_attribute ep (npar part) in
        if negb ok3 then Ok false else
        integrity_loop r eo' ei' ep'
  end.

(** source/relation.c:2566-2575 osl_relation_set_attributes_one and source/relation.c:2587-2595 osl_relation_set_attributes *)
Definition osl_relation_set_attributes (r : list relation) (o i l p : Z) : list relation :=
  map (fun part => with_attrs part o i l p) r.

(** source/relation.c:2604-2609 osl_relation_set_type *)
Definition osl_relation_set_type (r : list relation) (t : Z) : list relation :=
  map (fun part => with_type part t) r.

(** The five in/out parameters of the get_attributes functions:
    (nb_parameters, nb_iterators, nb_scattdims, nb_localdims, array_id). *)
Record attrs := mkattrs { a_par : Z; a_iter : Z; a_scat : Z; a_loc : Z; a_id : Z }.

Definition attrs_max (a b : attrs) : attrs :=
  mkattrs (Z.max (a_par a) (a_par b)) (Z.max (a_iter a) (a_iter b))
    (Z.max (a_scat a) (a_scat b)) (Z.max (a_loc a) (a_loc b)) (Z.max (a_id a) (a_id b)).

(** The local_* values computed by the switch; [r] is the rest of the union
    starting at [part] (what osl_relation_get_array_id sees). *)
Definition local_attrs (r : list relation) (part : relation) : res attrs :=
  if osl_relation_is_access part then
    id <- osl_relation_get_array_id r ;;
    Ok (mkattrs (npar part) (nin part) 0 (nloc part) id)
  else if rtype part =? TYPE_CONTEXT then Ok (mkattrs (npar part) 0 0 (nloc part) 0)
  else if rtype part =? TYPE_DOMAIN then Ok (mkattrs (npar part) (nout part) 0 (nloc part) 0)
  else (* OSL_TYPE_SCATTERING and default have the same code *)
    Ok (mkattrs (npar part) (nin part) (nout part) (nloc part) 0).

(** source/relation.c:2742-2810 osl_relation_get_attributes *)
Fixpoint osl_relation_get_attributes (r : list relation) (a : attrs) : res attrs :=
  match r with
  | [] => Ok a
  | part :: next =>
      l <- local_attrs r part ;; osl_relation_get_attributes next (attrs_max a l)
  end.

(** One iteration of source/relation.c:2823-2877 osl_relation_extend_output; [p] is the precision of the
    first part. *)
Definition extend_part (p : Z) (r : relation) (dim : Z) : res relation :=
  if dim <? nout r then Err
  else
    let offset := dim - nout r in
    node <- osl_relation_pmalloc p (nrows r + offset) (ncols r + offset) ;;
    m <- cfor 0 (nrows r) (fun i m =>
           m <- cfor 0 (nout r + 1) (fun j m => copy_cell p (rm r) i j m i j) m ;;
           cfor (nout r + offset + 1) (ncols r + offset) (fun j m =>
             copy_cell p (rm r) i (j - offset) m i j) m) (rm node) ;;
    m <- cfor (nrows r) (nrows r + offset) (fun i m =>
           cfor 0 (ncols r + offset) (fun j m =>
             if i - nrows r =? j - nout r - 1
             then x <- osl_int_set_si p (-1) ;; mset m i j x else Ok m) m) m ;;
    Ok (mkrel (rtype r) (rprec node) (nrows node) (ncols node)
          (Z.max (nout r) dim) (nin r) (nloc r) (npar r) m).

(** source/relation.c:2823-2877 osl_relation_extend_output: NULL is dereferenced by the initialisation
    of [precision]. *)
Definition osl_relation_extend_output (r : list relation) (dim : Z) : res (list relation) :=
  match r with
  | [] => UB
  | first :: _ => mapM (fun part => extend_part (rprec first) part dim) r
  end.

(** source/relation.c:2906-2920 osl_relation_set_precision *)
Definition set_precision_part (p : Z) (r : relation) : res relation :=
  if negb (p =? rprec r) then
    m <- cfor 0 (nrows r) (fun i m => cfor 0 (ncols r) (fun j m =>
           x <- mget m i j ;; y <- osl_int_set_precision (rprec r) p x ;; mset m i j y) m) (rm r) ;;
    Ok (with_prec r p m)
  else Ok r.
Definition osl_relation_set_precision (p : Z) (r : list relation) : res (list relation) :=
  mapM (set_precision_part p) r.

(** source/relation.c:2929-2941 osl_relation_set_same_precision *)
Definition osl_relation_set_same_precision (a b : list relation)
  : res (list relation * list relation) :=
  match a, b with
  | pa :: _, pb :: _ =>
      if negb (rprec pa =? rprec pb) then
        if (rprec pa =? PRECISION_MP) || (rprec pb =? PRECISION_MP) then
          a' <- osl_relation_set_precision PRECISION_MP a ;;
          b' <- osl_relation_set_precision PRECISION_MP b ;; Ok (a', b')
        else if (rprec pa =? PRECISION_DP) || (rprec pb =? PRECISION_DP) then
          a' <- osl_relation_set_precision PRECISION_DP a ;;
          b' <- osl_relation_set_precision PRECISION_DP b ;; Ok (a', b')
        else Ok (a, b)
      else Ok (a, b)
  | _, _ => Ok (a, b)
  end.

End RELATION.
