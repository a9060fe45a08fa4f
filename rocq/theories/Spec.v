(** * Independent specification vocabulary

    Definitions used in the statements of the property theorems and *not* by
    the model: what the English properties mean, in terms of mathematical
    integers, sets of points and lists. *)
From Verif Require Import Base.

(** ** Integers *)

(** [v] can be stored in an integer of precision [p] (32: C long, 64: C long
    long, 0: GMP) by the library built with configuration [c]. *)
Definition representable (c : config) (p v : Z) : Prop :=
  (p = 32 /\ - 2 ^ (long_bits c - 1) <= v <= 2 ^ (long_bits c - 1) - 1) \/
  (p = 64 /\ - 2 ^ 63 <= v <= 2 ^ 63 - 1) \/
  (p = 0 /\ gmp c = true).

(** The precision is one the library supports. *)
Definition supported (c : config) (p : Z) : Prop :=
  p = 32 \/ p = 64 \/ (p = 0 /\ gmp c = true).

(** A C [int]. *)
Definition c_int (i : Z) : Prop := - 2 ^ 31 <= i <= 2 ^ 31 - 1.

(** The most negative value of a fixed precision. *)
Definition is_min (c : config) (p v : Z) : Prop :=
  (p = 32 /\ v = - 2 ^ (long_bits c - 1)) \/ (p = 64 /\ v = - 2 ^ 63).

(** [g] is the greatest common divisor of [a] and [b] (0 for 0, 0). *)
Definition is_gcd (a b g : Z) : Prop :=
  0 <= g /\ (g | a) /\ (g | b) /\ forall d, (d | a) -> (d | b) -> (d | g).

(** [m] is the least common multiple of [a] and [b]. *)
Definition is_lcm (a b m : Z) : Prop :=
  0 <= m /\ (a | m) /\ (b | m) /\ forall d, (a | d) -> (b | d) -> (m | d).
