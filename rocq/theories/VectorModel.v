(** * Model of source/vector.c *)
From Verif Require Import Base IntModel.

(** include/osl/vector.h: struct osl_vector {int precision; int size; osl_int_t* v;}.
    A NULL vector pointer is [None] where the function accepts it. *)
Record vector := mkvec { vprec : Z; vsize : Z; vv : list Z }.

Section VECTOR.
Context {cfg : config}.

(** source/vector.c:148-163 osl_vector_pmalloc.  A negative size makes malloc fail (the byte count
    wraps to a huge size_t), hence OSL_error("memory overflow"). *)
Definition osl_vector_pmalloc (p size : Z) : res vector :=
  if size =? 0 then Ok (mkvec p size [])
  else if size <? 0 then Err
  else v <- cfor 0 size (fun i v => x <- osl_int_init_set_si p 0 ;; aset v i x)
              (repeat POISON (Z.to_nat size)) ;;
       Ok (mkvec p size v).

(** source/vector.c:212-229 osl_vector_add_scalar *)
Definition osl_vector_add_scalar (ov : option vector) (scalar : Z) : res vector :=
  match ov with
  | None => Err
  | Some vec =>
      if vsize vec <? 2 then Err
      else
        let p := vprec vec in
        let last := vsize vec - 1 in
        r <- osl_vector_pmalloc p (vsize vec) ;;
        v <- cfor 0 (vsize vec)
               (fun i v => x <- aget (vv vec) i ;; y <- osl_int_assign p x ;; aset v i y)
               (vv r) ;;
        x <- aget (vv vec) last ;;
        y <- osl_int_add_si p x scalar ;;
        v' <- aset v last y ;;
        Ok (mkvec p (vsize r) v')
  end.

(** The shared shape of osl_vector_add and osl_vector_sub. *)
Definition vector_zip (op : Z -> Z -> Z -> res Z) (o1 o2 : option vector) : res vector :=
  match o1, o2 with
  | Some v1, Some v2 =>
      if negb (vsize v1 =? vsize v2) || negb (vprec v1 =? vprec v2) then Err
      else
        r <- osl_vector_pmalloc (vprec v1) (vsize v1) ;;
        v <- cfor 0 (vsize v1)
               (fun i v => a <- aget (vv v1) i ;; b <- aget (vv v2) i ;;
                           y <- op (vprec v1) a b ;; aset v i y)
               (vv r) ;;
        Ok (mkvec (vprec r) (vsize r) v)
  | _, _ => Err
  end.

(** source/vector.c:240-253 osl_vector_add *)
Definition osl_vector_add := vector_zip osl_int_add.
(** source/vector.c:264-277 osl_vector_sub *)
Definition osl_vector_sub := vector_zip osl_int_sub.

(** source/vector.c:287-291 osl_vector_tag_inequality *)
Definition osl_vector_tag_inequality (ov : option vector) : res vector :=
  match ov with
  | None => Err
  | Some v => if vsize v <? 1 then Err
              else x <- osl_int_set_si (vprec v) 1 ;; l <- aset (vv v) 0 x ;;
                   Ok (mkvec (vprec v) (vsize v) l)
  end.

(** source/vector.c:301-305 osl_vector_tag_equality *)
Definition osl_vector_tag_equality (ov : option vector) : res vector :=
  match ov with
  | None => Err
  | Some v => if vsize v <? 1 then Err
              else x <- osl_int_set_si (vprec v) 0 ;; l <- aset (vv v) 0 x ;;
                   Ok (mkvec (vprec v) (vsize v) l)
  end.

(** source/vector.c:315-330 osl_vector_equal.  The pointer-equality shortcut only matters for NULL:
    two NULLs are equal, exactly one NULL is dereferenced. *)
Definition osl_vector_equal (o1 o2 : option vector) : res bool :=
  match o1, o2 with
  | None, None => Ok true
  | Some v1, Some v2 =>
      if negb (vsize v1 =? vsize v2) || negb (vprec v1 =? vprec v2) then Ok false
      else cforall 0 (vsize v1)
             (fun i => a <- aget (vv v1) i ;; b <- aget (vv v2) i ;;
                       ne <- osl_int_ne (vprec v1) a b ;; Ok (negb ne))
  | _, _ => UB
  end.

(** source/vector.c:340-348 osl_vector_mul_scalar *)
Definition osl_vector_mul_scalar (ov : option vector) (scalar : Z) : res vector :=
  match ov with
  | None => UB
  | Some vec =>
      r <- osl_vector_pmalloc (vprec vec) (vsize vec) ;;
      v <- cfor 0 (vsize vec)
             (fun i v => x <- aget (vv vec) i ;; y <- osl_int_mul_si (vprec vec) x scalar ;; aset v i y)
             (vv r) ;;
      Ok (mkvec (vprec r) (vsize r) v)
  end.

(** source/vector.c:357-367 osl_vector_is_scalar *)
Definition osl_vector_is_scalar (ov : option vector) : res bool :=
  match ov with
  | None => Ok false
  | Some v => cforall 0 (vsize v - 1) (fun i => x <- aget (vv v) i ;; osl_int_zero (vprec v) x)
  end.

End VECTOR.
