(** * Model of source/int.c

    [osl_int_t] is a union of [long], [long long] and [mpz_t*]; it is modelled
    by the mathematical value [Z] it holds, the precision being passed next to
    it as in the C API.  GMP numbers are arbitrary [Z] and the mpz functions
    their mathematical counterparts (GMP itself is trusted).

    For the fixed precisions the C code has two textually identical branches,
    one on [.sp]/LONG_*, one on [.dp]/LLONG_*; the model writes them once,
    indexed by the width [pbits p] of the member used. *)
From Verif Require Import Base.

Section INT.
Context {cfg : config}.

(** Width of the union member selected by a fixed precision:
    include/osl/int.h:75-84 ([long int sp; long long dp]). *)
Definition pbits (p : Z) : Z := if p =? PRECISION_SP then long_bits cfg else 64.
Definition pmin (p : Z) : Z := smin (pbits p).
Definition pmax (p : Z) : Z := smax (pbits p).

(** The three-way switch every function of int.c makes on the precision:
    [fixed] for OSL_PRECISION_SP/DP, [mp] when compiled with GMP, OSL_error
    ("unknown precision") otherwise. *)
Definition is_fixed (p : Z) : bool := (p =? PRECISION_SP) || (p =? PRECISION_DP).
Definition is_mp (p : Z) : bool := (p =? PRECISION_MP) && gmp cfg.
Definition pswitch {A} (p : Z) (fixed mp : res A) : res A :=
  if is_fixed p then fixed else if is_mp p then mp else Err.

(** source/int.c:90-103 osl_int_is_precision_supported *)
Definition osl_int_is_precision_supported (p : Z) : bool :=
  if p =? PRECISION_SP then true
  else if p =? PRECISION_DP then true
  else if (p =? PRECISION_MP) && gmp cfg then true
  else false.

(** source/int.c:135-155 osl_int_init *)
Definition osl_int_init (p : Z) : res Z := pswitch p (Ok 0) (Ok 0).

(** source/int.c:175-195 osl_int_assign: the destination value is [value]. *)
Definition osl_int_assign (p value : Z) : res Z := pswitch p (Ok value) (Ok value).

(** source/int.c:203-223 osl_int_set_si: [i] is a C int. *)
Definition osl_int_set_si (p i : Z) : res Z := pswitch p (Ok i) (Ok i).

(** source/int.c:231-257 osl_int_set_long: [i] is a C long; the checks can never fire. *)
Definition osl_int_set_long (p i : Z) : res Z := pswitch p (Ok i) (Ok i).

(** source/int.c:265-297 osl_int_set_long_long: [i] is a C long long. *)
Definition osl_int_set_long_long (p i : Z) : res Z :=
  let conv :=
    if ndebug cfg then Ok (wrap (long_bits cfg) i)
    else if smax (long_bits cfg) <? i then Err
    else if i <? smin (long_bits cfg) then Err
    else Ok i in
  if p =? PRECISION_SP then conv
  else if p =? PRECISION_DP then Ok i
  else if is_mp p then conv
  else Err.

(** source/int.c:305-337 osl_int_get_si; in an NDEBUG build the value is truncated to int. *)
Definition osl_int_get_si (p v : Z) : res Z :=
  let get :=
    if ndebug cfg then Ok (wrap 32 v)
    else if INT_MAX <? v then Err
    else if v <? INT_MIN then Err
    else Ok v in
  pswitch p get get.

(** source/int.c:345-377 osl_int_get_long.  mpz_get_si out of range returns the low bits with the
    sign: only its use on fitting values is given a meaning, otherwise the
    result is unspecified by this model ([UB]). *)
Definition osl_int_get_long (p v : Z) : res Z :=
  if p =? PRECISION_SP then Ok v
  else if p =? PRECISION_DP then
    (if ndebug cfg then Ok (wrap (long_bits cfg) v)
     else if smax (long_bits cfg) <? v then Err
     else if v <? smin (long_bits cfg) then Err
     else Ok v)
  else if is_mp p then
    (if fits (long_bits cfg) v then Ok v else if ndebug cfg then UB else Err)
  else Err.

(** source/int.c:385-417 osl_int_get_long_long: note the cast [(long int)value.dp] on the way out. *)
Definition osl_int_get_long_long (p v : Z) : res Z :=
  if p =? PRECISION_SP then Ok v
  else if p =? PRECISION_DP then Ok (wrap (long_bits cfg) v)
  else if is_mp p then
    (if fits (long_bits cfg) v then Ok v else if ndebug cfg then UB else Err)
  else Err.

(** source/int.c:449-453 osl_int_init_set *)
Definition osl_int_init_set (p i : Z) : res Z :=
  osl_int_init p ;;; osl_int_assign p i.

(** source/int.c:461-482 osl_int_init_set_si *)
Definition osl_int_init_set_si (p i : Z) : res Z := pswitch p (Ok i) (Ok i).

(** source/int.c:490-498 osl_int_init_set_long: with GMP the mpz_t is allocated but not mpz_init'ed before
    mpz_set_si: undefined behaviour. *)
Definition osl_int_init_set_long (p i : Z) : res Z :=
  if is_mp p then UB else osl_int_set_long p i.

(** source/int.c:506-514 osl_int_init_set_long_long: same defect. *)
Definition osl_int_init_set_long_long (p i : Z) : res Z :=
  if is_mp p then
    (if negb (ndebug cfg) && negb (fits (long_bits cfg) i) then Err else UB)
  else osl_int_set_long_long p i.

(** source/int.c:522-554 osl_int_swap *)
Definition osl_int_swap (p a b : Z) : res (Z * Z) := pswitch p (Ok (b, a)) (Ok (b, a)).

(** source/int.c:561-581 osl_int_clear: returns the value left in the variable; with GMP the
    variable no longer exists, 0 stands for that. *)
Definition osl_int_clear (p : Z) : res unit := pswitch p (Ok tt) (Ok tt).

(** ** Conditional operations *)

(** source/int.c:1341-1358 osl_int_eq *)
Definition osl_int_eq (p a b : Z) : res bool := pswitch p (Ok (a =? b)) (Ok (a =? b)).

(** source/int.c:1367-1370 osl_int_ne *)
Definition osl_int_ne (p a b : Z) : res bool := x <- osl_int_eq p a b ;; Ok (negb x).

(** Reading the [.sp] member of the union whatever was stored: the low
    [long_bits] bits, sign-extended (little endian). *)
Definition as_sp (v : Z) : Z := wrap (long_bits cfg) v.

(** source/int.c:1379-1394 osl_int_lt: both fixed precisions compare [.sp]. *)
Definition osl_int_lt (p a b : Z) : res bool :=
  pswitch p (Ok (as_sp a <? as_sp b)) (Ok (a <? b)).
(** source/int.c:1403-1418 osl_int_le *)
Definition osl_int_le (p a b : Z) : res bool :=
  pswitch p (Ok (as_sp a <=? as_sp b)) (Ok (a <=? b)).
(** source/int.c:1427-1442 osl_int_gt *)
Definition osl_int_gt (p a b : Z) : res bool :=
  pswitch p (Ok (as_sp b <? as_sp a)) (Ok (b <? a)).
(** source/int.c:1451-1466 osl_int_ge *)
Definition osl_int_ge (p a b : Z) : res bool :=
  pswitch p (Ok (as_sp b <=? as_sp a)) (Ok (b <=? a)).

(** source/int.c:1474-1490 osl_int_pos *)
Definition osl_int_pos (p v : Z) : res bool := pswitch p (Ok (0 <? v)) (Ok (0 <? v)).
(** source/int.c:1498-1514 osl_int_neg *)
Definition osl_int_neg (p v : Z) : res bool := pswitch p (Ok (v <? 0)) (Ok (v <? 0)).
(** source/int.c:1522-1538 osl_int_zero *)
Definition osl_int_zero (p v : Z) : res bool := pswitch p (Ok (v =? 0)) (Ok (v =? 0)).
(** source/int.c:1546-1562 osl_int_one *)
Definition osl_int_one (p v : Z) : res bool := pswitch p (Ok (v =? 1)) (Ok (v =? 1)).
(** source/int.c:1570-1586 osl_int_mone *)
Definition osl_int_mone (p v : Z) : res bool := pswitch p (Ok (v =? -1)) (Ok (v =? -1)).

(** C [/] and [%] on a signed type: truncation towards zero; UB on a zero
    divisor and on MIN / -1, MIN % -1 (C11 6.5.5p6). *)
Definition c_div (bits a b : Z) : res Z :=
  if b =? 0 then UB else csigned bits (Z.quot a b).
Definition c_rem (bits a b : Z) : res Z :=
  if b =? 0 then UB
  else if negb (fits bits (Z.quot a b)) then UB else Ok (Z.rem a b).
(** labs/llabs and unary minus. *)
Definition c_neg (bits v : Z) : res Z := csigned bits (- v).
Definition c_abs (bits v : Z) : res Z := csigned bits (Z.abs v).

(** source/int.c:1595-1612 osl_int_divisible; mpz_divisible_p(n, 0) is true iff n = 0. *)
Definition osl_int_divisible (p a b : Z) : res bool :=
  pswitch p (r <- c_rem (pbits p) a b ;; Ok (r =? 0))
    (Ok (if b =? 0 then a =? 0 else Z.rem a b =? 0)).

(** ** Arithmetic operations *)

(** source/int.c:756-794 osl_int_add *)
Definition osl_int_add (p a b : Z) : res Z :=
  pswitch p
    ((if ndebug cfg then Ok tt
      else if (0 <? a) && (0 <? b) then
        d <- csigned (pbits p) (pmax p - a) ;; if d <? b then Err else Ok tt
      else if (a <? 0) && (b <? 0) then
        d <- csigned (pbits p) (a - pmin p) ;;
        nb <- c_neg (pbits p) b ;;
        if d <? nb then Err else Ok tt
      else Ok tt) ;;;
     csigned (pbits p) (a + b))
    (Ok (a + b)).

(** source/int.c:803-845 osl_int_add_si: [i] is an int, and [-i] is computed as an int. *)
Definition osl_int_add_si (p v i : Z) : res Z :=
  pswitch p
    ((if ndebug cfg then Ok tt
      else if (0 <? v) && (0 <? i) then
        d <- csigned (pbits p) (pmax p - v) ;; if d <? i then Err else Ok tt
      else if (v <? 0) && (i <? 0) then
        d <- csigned (pbits p) (v - pmin p) ;;
        ni <- c_neg 32 i ;;
        if d <? ni then Err else Ok tt
      else Ok tt) ;;;
     csigned (pbits p) (v + i))
    (Ok (v + i)).

(** source/int.c:733-736 osl_int_increment and source/int.c:744-747 osl_int_decrement *)
Definition osl_int_increment (p v : Z) : res Z := osl_int_add_si p v 1.
Definition osl_int_decrement (p v : Z) : res Z := osl_int_add_si p v (-1).

(** source/int.c:1203-1223 osl_int_oppose *)
Definition osl_int_oppose (p v : Z) : res Z :=
  pswitch p (c_neg (pbits p) v) (Ok (- v)).

(** source/int.c:1231-1251 osl_int_abs *)
Definition osl_int_abs (p v : Z) : res Z :=
  pswitch p (if 0 <? v then Ok v else c_neg (pbits p) v) (Ok (Z.abs v)).

(** source/int.c:854-867 osl_int_sub *)
Definition osl_int_sub (p a b : Z) : res Z :=
  if is_mp p then Ok (a - b)
  else osl_int_init p ;;; mb <- osl_int_oppose p b ;; osl_int_add p a mb.

(** source/int.c:876-910 osl_int_mul: the product is computed first, the check comes after. *)
Definition osl_int_mul (p a b : Z) : res Z :=
  pswitch p
    (x <- csigned (pbits p) (a * b) ;;
     (if ndebug cfg then Ok tt
      else if negb (a =? 0) && negb (b =? 0) then
        q <- c_div (pbits p) x b ;; if negb (q =? a) then Err else Ok tt
      else Ok tt) ;;;
     Ok x)
    (Ok (a * b)).

(** source/int.c:919-953 osl_int_mul_si *)
Definition osl_int_mul_si (p v i : Z) : res Z :=
  pswitch p
    (x <- csigned (pbits p) (v * i) ;;
     (if ndebug cfg then Ok tt
      else if negb (v =? 0) && negb (i =? 0) then
        q <- c_div (pbits p) x i ;; if negb (q =? v) then Err else Ok tt
      else Ok tt) ;;;
     Ok x)
    (Ok (v * i)).

(** source/int.c:963-983 osl_int_div_exact.  mpz_divexact by 0 or without exact divisibility is
    undefined. *)
Definition osl_int_div_exact (p a b : Z) : res Z :=
  pswitch p (c_div (pbits p) a b)
    (if b =? 0 then UB else if Z.rem a b =? 0 then Ok (Z.quot a b) else UB).

(** source/int.c:992-1030 osl_int_floor_div_q.  mpz_fdiv_q is floor division (a zero divisor traps). *)
Definition osl_int_floor_div_q (p a b : Z) : res Z :=
  pswitch p
    (q <- c_div (pbits p) a b ;;
     if q <? 0 then
       r <- c_rem (pbits p) a b ;;
       if negb (r =? 0) then csigned (pbits p) (q - 1) else Ok q
     else if q =? 0 then
       if ((0 <? a) && (b <? 0)) || ((a <? 0) && (0 <? b))
       then csigned (pbits p) (q - 1) else Ok q
     else Ok q)
    (if b =? 0 then UB else Ok (a / b)).

(** source/int.c:1039-1061 osl_int_floor_div_r *)
Definition osl_int_floor_div_r (p a b : Z) : res Z :=
  pswitch p
    (q <- osl_int_floor_div_q p a b ;;
     x <- csigned (pbits p) (q * b) ;;
     csigned (pbits p) (a - x))
    (if b =? 0 then UB else Ok (a - b * (a / b))).

(** source/int.c:1071-1094 osl_int_floor_div_q_r *)
Definition osl_int_floor_div_q_r (p a b : Z) : res (Z * Z) :=
  pswitch p
    (q <- osl_int_floor_div_q p a b ;;
     x <- csigned (pbits p) (q * b) ;;
     r <- csigned (pbits p) (a - x) ;;
     Ok (q, r))
    (if b =? 0 then UB else Ok (a / b, a - b * (a / b))).

(** source/int.c:1104-1128 osl_int_mod.  mpz_mod is non-negative and ignores the divisor's sign. *)
Definition osl_int_mod (p a b : Z) : res Z :=
  pswitch p
    (m <- c_rem (pbits p) a b ;;
     if m <? 0 then
       ab <- c_abs (pbits p) b ;; csigned (pbits p) (m + ab)
     else Ok m)
    (if b =? 0 then UB else Ok (a mod (Z.abs b))).

(** source/int.c:1131-1133 llgcd: recursion on [long long], [fuel] bounds its depth. *)
Fixpoint llgcd (fuel : nat) (a b : Z) : res Z :=
  match fuel with
  | O => OutOfFuel
  | S f => if b =? 0 then Ok a else r <- c_rem 64 a b ;; llgcd f b r
  end.

(** Each step but the first more than halves |a*b| (proved in IntProofs.v), so
    this is enough fuel. *)
Definition llgcd_fuel (a b : Z) : nat := (Z.to_nat (Z.log2 (Z.abs (a * b))) + 3)%nat.

(** source/int.c:1142-1162 osl_int_gcd.  The [long long] result is narrowed to [long] for
    [labs] in single precision. *)
Definition osl_int_gcd (p a b : Z) : res Z :=
  pswitch p
    (g <- llgcd (llgcd_fuel a b) a b ;; c_abs (pbits p) g)
    (Ok (Z.gcd a b)).

(** source/int.c:1172-1195 osl_int_lcm *)
Definition osl_int_lcm (p a b : Z) : res Z :=
  osl_int_init p ;;;
  pa <- osl_int_abs p a ;;
  pb <- osl_int_abs p b ;;
  g <- osl_int_gcd p pa pb ;;
  z <- osl_int_zero p g ;;
  if z then osl_int_set_si p 0
  else pa' <- osl_int_div_exact p pa g ;; osl_int_mul p pa' pb.

(** source/int.c:1254-1265 lllog2: [x >>= 1] until zero, on a non-negative value. *)
Fixpoint lllog2_loop (fuel : nat) (x : Z) (n : Z) : res Z :=
  match fuel with
  | O => OutOfFuel
  | S f => if x =? 0 then Ok n else lllog2_loop f (Z.shiftr x 1) (n + 1)
  end.
Definition lllog2 (x : Z) : res Z :=
  x' <- c_abs 64 x ;;
  n <- lllog2_loop (S (S (Z.to_nat (Z.log2 x')))) x' 0 ;;
  Ok (if n =? 0 then 1 else n).

(** source/int.c:1273-1289 osl_int_size_in_base_2; mpz_sizeinbase(v, 2) is the exact bit length, 1 for 0. *)
Definition osl_int_size_in_base_2 (p v : Z) : res Z :=
  pswitch p (lllog2 v)
    (Ok (if v =? 0 then 1 else Z.log2 (Z.abs v) + 1)).

(** source/int.c:1292-1303 lllog10 *)
Fixpoint lllog10_loop (fuel : nat) (x : Z) (n : Z) : res Z :=
  match fuel with
  | O => OutOfFuel
  | S f => if x =? 0 then Ok n else lllog10_loop f (Z.quot x 10) (n + 1)
  end.
Definition lllog10 (x : Z) : res Z :=
  x' <- c_abs 64 x ;;
  lllog10_loop (S (S (Z.to_nat (Z.log2 x')))) x' 0.

(** source/int.c:1312-1328 osl_int_size_in_base_10, fixed precisions only: mpz_sizeinbase(v,10) is allowed to
    overestimate by one and is not modelled. *)
Definition osl_int_size_in_base_10 (p v : Z) : res Z :=
  if is_fixed p then lllog10 v else Err.

(** source/int.c:1624-1631 osl_int_set_precision *)
Definition osl_int_set_precision (p newp v : Z) : res Z :=
  if p =? newp then Ok v
  else x <- osl_int_get_si p v ;; osl_int_clear p ;;; osl_int_init_set_si newp x.

(** ** Printing and scanning *)

(** Decimal digits of [n >= 0], most significant first. *)
Fixpoint digits_loop (fuel : nat) (n : Z) (acc : str) : str :=
  match fuel with
  | O => acc
  | S f => if n <? 10 then digit_chr n :: acc
           else digits_loop f (n / 10) (digit_chr (n mod 10) :: acc)
  end.
Definition print_nat_Z (n : Z) : str := digits_loop (S (Z.to_nat (Z.log2 n))) n [].
(** "%ld" / "%lld" / mpz_get_str(.., 10, ..) *)
Definition print_Z (v : Z) : str :=
  if v <? 0 then c_minus :: print_nat_Z (- v) else print_nat_Z v.
(** "%4…": right-justified in 4 columns *)
Definition pad4 (s : str) : str := repeat c_sp (4 - List.length s) ++ s.

(** source/int.c:616-640 osl_int_sprint (OSL_FMT_SP, OSL_FMT_DP, OSL_FMT_MP of macros.h) *)
Definition osl_int_sprint (p v : Z) : res str :=
  pswitch p (Ok (pad4 (print_Z v))) (Ok (pad4 (print_Z v))).
(** source/int.c:648-672 osl_int_sprint_txt (OSL_FMT_TXT formats, macros.h) *)
Definition osl_int_sprint_txt (p v : Z) : res str :=
  pswitch p (Ok (print_Z v)) (Ok (print_Z v)).

Fixpoint skip_spaces (s : str) : str :=
  match s with
  | [] => []
  | c :: tl => if is_space c then skip_spaces tl else s
  end.

Fixpoint scan_digits (s : str) (acc : Z) : Z * str :=
  match s with
  | [] => (acc, [])
  | c :: tl => if is_digit c then scan_digits tl (10 * acc + digit_val c) else (acc, s)
  end.

(** What sscanf(s, "%ld", &v) does: skip white space, optional sign, at least
    one digit.  [None] is end of input before the conversion (EOF);
    [Some None] a matching failure (0 items); [Some (Some (v, rest))] one item. *)
Definition scan_Z (s : str) : option (option (Z * str)) :=
  match skip_spaces s with
  | [] => None
  | c :: tl =>
      let '(neg, body) :=
        if ceqb c c_minus then (true, tl)
        else if ceqb c c_plus then (false, tl) else (false, c :: tl) in
      match body with
      | d :: _ => if is_digit d
                  then let '(v, rest) := scan_digits body 0 in
                       Some (Some ((if neg then - v else v), rest))
                  else Some None
      | [] => Some None
      end
  end.

(** source/int.c:681-710 osl_int_sscanf.  Result: (return value, new content of *i).  sscanf has
    undefined behaviour when the number does not fit (C11 7.21.6.2p10).  On EOF
    sscanf returns -1, which is not 0, so no error is raised and *i keeps its
    old value. *)
Definition osl_int_sscanf (s : str) (p old : Z) : res (Z * Z) :=
  pswitch p
    (match scan_Z s with
     | None => Ok (-1, old)
     | Some None => Err
     | Some (Some (v, _)) => if fits (pbits p) v then Ok (1, v) else UB
     end)
    (match scan_Z s with
     | None => Ok (-1, old)
     | Some None => Err
     | Some (Some (v, _)) => Ok (1, v)
     end).

(** source/int.c:718-721 osl_int_sread: the caller's pointer moves by the *number of conversions*.
    Result: (pointer displacement, value). *)
Definition osl_int_sread (s : str) (p old : Z) : res (Z * Z) := osl_int_sscanf s p old.

End INT.
