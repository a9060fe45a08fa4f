(** * DoubleModel: conversion to double (source/int.c:425-441 osl_int_get_d) *)
From Verif Require Import Base IntModel.

(** A double that a conversion from an integer can give: an integer, or an infinity.
    IEEE 754 binary64: 53 bits of significand. *)
Inductive double := Finite (v : Z) | Infinite (negative : bool).
(** The weight of the last bit of the significand of a double near [a] *)
Definition ulp (a : Z) : Z := 2 ^ Z.max 0 (Z.log2 a - 52).
(** Rounding of [a] >= 0 toward zero, as GMP's mpz_get_d does *)
Definition truncated (a : Z) : Z := a / ulp a * ulp a.
(** Rounding of [a] >= 0 to nearest, ties to even: the conversion (double) of C in the default rounding mode *)
Definition nearest (a : Z) : Z :=
  let q := a / ulp a in let r := a mod ulp a in
  if (ulp a <? 2 * r) || ((ulp a =? 2 * r) && Z.odd q) then (q + 1) * ulp a else q * ulp a.

(** source/int.c:425-441 osl_int_get_d.  mpz_get_d gives an infinity when the exponent is too big (GMP manual, 5.4). *)
Definition osl_int_get_d {cfg : config} (p v : Z) : res double :=
  pswitch p (Ok (Finite (Z.sgn v * nearest (Z.abs v))))
            (if 2 ^ 1024 <=? Z.abs v then Ok (Infinite (v <? 0)) else Ok (Finite (Z.sgn v * truncated (Z.abs v)))).
