(** * Property theorems C01-C07: integers (source/int.c)

    Specification vocabulary: Spec.v (representable, supported, is_min, c_int,
    is_gcd, is_lcm).  Model: IntModel.v. *)
From Verif Require Import Base IntModel Spec IntProofs TextInt.

(** ** C01: addition and subtraction *)

(** Whenever the sum is representable it is what is stored; the only exception
    is a checked build adding the most negative value to a negative one, see
    [C01_add_guard_refuted] (that sum is never representable anyway). *)
Theorem C01_add_exact : forall (cfg : config) (p a b : Z),
  config_ok cfg ->
  representable cfg p a -> representable cfg p b -> representable cfg p (a + b) ->
  osl_int_add p a b = Ok (a + b).
Proof.
  intros cfg p a b Hc Ha Hb Hab. apply add_exact; auto.
  destruct (ndebug cfg); [left; reflexivity|right]. intros [Hneg Hm].
  destruct Hm as [[-> ->]|[-> ->]]; unfold representable in Hab; lia.
Qed.
Print Assumptions C01_add_exact.
Example C01_add_exact_ex : representable lp64_debug 64 (2^62) /\
  representable lp64_debug 64 (2^62 - 1) /\ representable lp64_debug 64 (2^62 + (2^62 - 1)) /\
  @osl_int_add lp64_debug 64 (2^62) (2^62 - 1) = Ok (2^63 - 1).
Proof. unfold representable; repeat split; try reflexivity; right; left; lia. Qed.

(** A checked build stops instead of storing a wrong sum. *)
Theorem C01_add_overflow_stops : forall (cfg : config) (p a b : Z),
  config_ok cfg -> ndebug cfg = false ->
  representable cfg p a -> representable cfg p b -> ~ representable cfg p (a + b) ->
  ~ is_min cfg p b ->
  osl_int_add p a b = Err.
Proof. intros; apply add_overflow; assumption. Qed.
Print Assumptions C01_add_overflow_stops.
Example C01_add_overflow_stops_ex :
  ~ representable lp64_debug 64 (2^62 + 2^62) /\ @osl_int_add lp64_debug 64 (2^62) (2^62) = Err.
Proof. split; [unfold representable; cbn; intuition lia|reflexivity]. Qed.

(** The full claim is false at one corner: the overflow guard itself negates
    [val2], which is undefined for the most negative value. *)
Theorem C01_add_guard_refuted : forall (cfg : config) (p a b : Z),
  config_ok cfg -> ndebug cfg = false ->
  representable cfg p a -> a < 0 -> is_min cfg p b ->
  osl_int_add p a b = UB.
Proof. intros; apply add_min_ub; assumption. Qed.
Print Assumptions C01_add_guard_refuted.
Example C01_add_guard_refuted_ex : @osl_int_add lp64_debug 64 (-1) (-2^63) = UB.
Proof. reflexivity. Qed.

Theorem C01_add_si_exact : forall (cfg : config) (p a i : Z),
  config_ok cfg ->
  representable cfg p a -> c_int i -> representable cfg p (a + i) ->
  (ndebug cfg = true \/ ~ (a < 0 /\ i = - 2 ^ 31)) ->
  osl_int_add_si p a i = Ok (a + i).
Proof. intros; apply add_si_exact; assumption. Qed.
Print Assumptions C01_add_si_exact.

Theorem C01_add_si_overflow_stops : forall (cfg : config) (p a i : Z),
  config_ok cfg -> ndebug cfg = false ->
  representable cfg p a -> c_int i -> ~ representable cfg p (a + i) -> i <> - 2 ^ 31 ->
  osl_int_add_si p a i = Err.
Proof. intros; apply add_si_overflow; assumption. Qed.
Print Assumptions C01_add_si_overflow_stops.

(** Adding INT_MIN to a negative value is undefined although the sum is
    representable: [-i] overflows [int]. *)
Theorem C01_add_si_guard_refuted : exists (cfg : config) (p a i : Z),
  config_ok cfg /\ representable cfg p a /\ c_int i /\ representable cfg p (a + i) /\
  osl_int_add_si p a i = UB.
Proof.
  exists lp64_debug, 64, (-1), (-2^31).
  repeat split; try reflexivity; unfold config_ok, c_int, representable; cbn; try lia.
Qed.
Print Assumptions C01_add_si_guard_refuted.

Theorem C01_increment_decrement : forall (cfg : config) (p a : Z),
  config_ok cfg -> representable cfg p a ->
  (representable cfg p (a + 1) -> osl_int_increment p a = Ok (a + 1)) /\
  (representable cfg p (a - 1) -> osl_int_decrement p a = Ok (a - 1)).
Proof.
  intros cfg p a Hc Ha. split; intros H.
  - apply add_si_exact; auto; [unfold c_int; lia|right; lia].
  - apply (add_si_exact Hc p a (-1)); auto; [unfold c_int; lia|right; lia].
Qed.
Print Assumptions C01_increment_decrement.

Theorem C01_increment_decrement_overflow_stops : forall (cfg : config) (p a : Z),
  config_ok cfg -> ndebug cfg = false -> representable cfg p a ->
  (~ representable cfg p (a + 1) -> osl_int_increment p a = Err) /\
  (~ representable cfg p (a - 1) -> osl_int_decrement p a = Err).
Proof.
  intros cfg p a Hc Hd Ha. split; intros H.
  - apply C01_add_si_overflow_stops; auto; [unfold c_int; lia|lia].
  - apply (C01_add_si_overflow_stops cfg p a (-1)); auto; [unfold c_int; lia|lia].
Qed.
Print Assumptions C01_increment_decrement_overflow_stops.
Example C01_increment_overflow_ex : @osl_int_increment lp64_debug 64 (2^63 - 1) = Err /\
  @osl_int_decrement lp64_debug 64 (- 2^63) = Err.
Proof. split; reflexivity. Qed.

Theorem C01_sub_exact : forall (cfg : config) (p a b : Z),
  config_ok cfg ->
  representable cfg p a -> representable cfg p b -> representable cfg p (a - b) ->
  ~ is_min cfg p b ->
  osl_int_sub p a b = Ok (a - b).
Proof. intros; apply sub_exact; assumption. Qed.
Print Assumptions C01_sub_exact.
Example C01_sub_exact_ex : @osl_int_sub lp64_debug 64 (-5) (2^63 - 10) = Ok (-5 - (2^63 - 10)).
Proof. reflexivity. Qed.

Theorem C01_sub_overflow_stops : forall (cfg : config) (p a b : Z),
  config_ok cfg -> ndebug cfg = false ->
  representable cfg p a -> representable cfg p b -> ~ representable cfg p (a - b) ->
  ~ is_min cfg p b ->
  osl_int_sub p a b = Err.
Proof. intros; apply sub_overflow; assumption. Qed.
Print Assumptions C01_sub_overflow_stops.

(** Subtracting the most negative value is undefined even when the difference
    is representable (a < 0). *)
Theorem C01_sub_min_refuted : exists (cfg : config) (p a b : Z),
  config_ok cfg /\ representable cfg p a /\ representable cfg p b /\
  representable cfg p (a - b) /\ osl_int_sub p a b = UB.
Proof.
  exists lp64_debug, 64, (-1), (-2^63). unfold config_ok, representable; cbn.
  repeat split; auto; right; left; lia.
Qed.
Print Assumptions C01_sub_min_refuted.

(** ** C02: multiplication, negation, absolute value *)
Theorem C02_mul_exact : forall (cfg : config) (p a b : Z),
  config_ok cfg ->
  representable cfg p a -> representable cfg p b -> representable cfg p (a * b) ->
  osl_int_mul p a b = Ok (a * b).
Proof. intros; apply mul_exact; assumption. Qed.
Print Assumptions C02_mul_exact.
Example C02_mul_exact_ex : @osl_int_mul lp64_debug 64 (-2^31) (2^32) = Ok (-2^63).
Proof. reflexivity. Qed.

Theorem C02_mul_si_exact : forall (cfg : config) (p a i : Z),
  config_ok cfg -> representable cfg p a -> c_int i -> representable cfg p (a * i) ->
  osl_int_mul_si p a i = Ok (a * i).
Proof. intros; apply mul_si_exact; assumption. Qed.
Print Assumptions C02_mul_si_exact.

(** The promised error never comes: the product is computed before the check,
    so every unrepresentable product is undefined behaviour, in checked builds
    too. *)
Theorem C02_mul_overflow_refuted : forall (cfg : config) (p a b : Z),
  config_ok cfg ->
  representable cfg p a -> representable cfg p b -> ~ representable cfg p (a * b) ->
  osl_int_mul p a b = UB.
Proof. intros; apply mul_overflow_ub; assumption. Qed.
Print Assumptions C02_mul_overflow_refuted.
Example C02_mul_overflow_refuted_ex : @osl_int_mul lp64_debug 64 (2^40) (2^40) = UB.
Proof. reflexivity. Qed.

Theorem C02_oppose_exact : forall (cfg : config) (p v : Z),
  config_ok cfg -> representable cfg p v ->
  (~ is_min cfg p v -> osl_int_oppose p v = Ok (- v)) /\
  (is_min cfg p v -> osl_int_oppose p v = UB).
Proof.
  intros cfg p v Hc Hv. split; intros H.
  - apply oppose_exact; auto. apply oppose_representable; assumption.
  - apply oppose_ub; assumption.
Qed.
Print Assumptions C02_oppose_exact.

Theorem C02_abs_exact : forall (cfg : config) (p v : Z),
  config_ok cfg -> representable cfg p v -> ~ is_min cfg p v ->
  osl_int_abs p v = Ok (Z.abs v).
Proof. intros cfg p v Hc Hv Hm. apply abs_exact; auto. apply abs_representable; assumption. Qed.
Print Assumptions C02_abs_exact.

(** ** C03: division family.  [Z.div]/[Z.modulo] are floor division and its
    remainder: a = b * (a / b) + a mod b with (a mod b) between 0 and b. *)
Theorem C03_floor_div_q : forall (cfg : config) (p a b : Z),
  config_ok cfg -> representable cfg p a -> representable cfg p b -> b <> 0 ->
  representable cfg p (a / b) ->
  exists q, osl_int_floor_div_q p a b = Ok q /\
            (* q is the floor of the rational a/b *)
            (0 < b -> q * b <= a < (q + 1) * b) /\
            (b < 0 -> (q + 1) * b < a <= q * b).
Proof.
  intros cfg p a b Hc Ha Hb Hnz Hq. exists (a / b).
  split; [apply floor_div_q_exact; assumption|].
  pose proof (Z.div_mod a b Hnz) as E. split; intros H.
  - pose proof (Z.mod_pos_bound a b H). nia.
  - pose proof (Z.mod_neg_bound a b H). nia.
Qed.
Print Assumptions C03_floor_div_q.
Example C03_floor_div_q_ex :
  @osl_int_floor_div_q lp64_debug 64 (-7) 2 = Ok (-4) /\
  @osl_int_floor_div_q lp64_debug 64 7 (-2) = Ok (-4) /\
  @osl_int_floor_div_q lp64_debug 64 1 (-2) = Ok (-1).
Proof. repeat split; reflexivity. Qed.

Theorem C03_floor_div_r : forall (cfg : config) (p a b : Z),
  config_ok cfg -> representable cfg p a -> representable cfg p b -> b <> 0 ->
  representable cfg p (a / b) -> representable cfg p (b * (a / b)) ->
  exists r, osl_int_floor_div_r p a b = Ok r /\ (b | a - r) /\
            (0 < b -> 0 <= r < b) /\ (b < 0 -> b < r <= 0).
Proof.
  intros cfg p a b Hc Ha Hb Hnz Hq Hx. exists (a mod b).
  split; [apply floor_div_r_exact; assumption|].
  split; [exists (a / b); rewrite Z.mod_eq by assumption; ring|].
  split; intros H; [apply Z.mod_pos_bound|apply Z.mod_neg_bound]; assumption.
Qed.
Print Assumptions C03_floor_div_r.

Theorem C03_floor_div_q_r : forall (cfg : config) (p a b : Z),
  config_ok cfg -> representable cfg p a -> representable cfg p b -> b <> 0 ->
  representable cfg p (a / b) -> representable cfg p (b * (a / b)) ->
  exists q r, osl_int_floor_div_q_r p a b = Ok (q, r) /\ a = b * q + r /\
              (0 < b -> 0 <= r < b) /\ (b < 0 -> b < r <= 0).
Proof.
  intros cfg p a b Hc Ha Hb Hnz Hq Hx. exists (a / b), (a mod b).
  split; [apply floor_div_q_r_exact; assumption|].
  split; [apply Z.div_mod; assumption|].
  split; intros H; [apply Z.mod_pos_bound|apply Z.mod_neg_bound]; assumption.
Qed.
Print Assumptions C03_floor_div_q_r.
Example C03_floor_div_q_r_ex : @osl_int_floor_div_q_r lp64_debug 32 (-7) 3 = Ok (-3, 2).
Proof. reflexivity. Qed.

(** The side condition of the two theorems above is necessary: the remainder
    of the most negative value by 3 fits, yet computing it overflows. *)
Theorem C03_floor_div_r_refuted : exists (cfg : config) (p a b : Z),
  config_ok cfg /\ representable cfg p a /\ representable cfg p b /\ b <> 0 /\
  representable cfg p (a / b) /\ representable cfg p (a mod b) /\
  osl_int_floor_div_r p a b = UB.
Proof.
  exists lp64_debug, 64, (-2^63), 3. unfold config_ok, representable.
  repeat split; try discriminate; try reflexivity; cbn; auto; right; left; lia.
Qed.
Print Assumptions C03_floor_div_r_refuted.

Theorem C03_mod : forall (cfg : config) (p a b : Z),
  config_ok cfg -> representable cfg p a -> representable cfg p b -> b <> 0 ->
  ~ (is_min cfg p a /\ b = -1) -> ~ is_min cfg p b ->
  exists m, osl_int_mod p a b = Ok m /\ 0 <= m < Z.abs b /\ (b | a - m).
Proof. intros; apply mod_exact; assumption. Qed.
Print Assumptions C03_mod.
Example C03_mod_ex : @osl_int_mod lp64_debug 64 (-7) (-3) = Ok 2.
Proof. reflexivity. Qed.

Theorem C03_div_exact : forall (cfg : config) (p a b : Z),
  config_ok cfg -> representable cfg p a -> representable cfg p b -> b <> 0 ->
  (b | a) -> representable cfg p (a / b) ->
  exists q, osl_int_div_exact p a b = Ok q /\ q * b = a.
Proof. intros; apply div_exact_ok; assumption. Qed.
Print Assumptions C03_div_exact.

(** Fixed precision and GMP agree wherever both are defined. *)
Theorem C03_precisions_agree : forall (cfg : config) (p a b : Z),
  config_ok cfg -> gmp cfg = true ->
  representable cfg p a -> representable cfg p b -> b <> 0 ->
  representable cfg p (a / b) -> representable cfg p (b * (a / b)) ->
  osl_int_floor_div_q p a b = osl_int_floor_div_q 0 a b /\
  osl_int_floor_div_q_r p a b = osl_int_floor_div_q_r 0 a b.
Proof.
  intros cfg p a b Hc Hg Ha Hb Hnz Hq Hx.
  assert (Hr : forall v, representable cfg 0 v) by (intros v; right; right; auto).
  split.
  - rewrite !floor_div_q_exact; auto.
  - rewrite !floor_div_q_r_exact; auto.
Qed.
Print Assumptions C03_precisions_agree.

(** ** C04: gcd, lcm *)
Theorem C04_gcd : forall (cfg : config) (p a b : Z),
  config_ok cfg -> representable cfg p a -> representable cfg p b ->
  ~ is_min cfg p a -> ~ is_min cfg p b ->
  exists g, osl_int_gcd p a b = Ok g /\ is_gcd a b g.
Proof.
  intros. exists (Z.gcd a b). split; [apply gcd_exact; assumption|apply is_gcd_gcd].
Qed.
Print Assumptions C04_gcd.
Example C04_gcd_ex : @osl_int_gcd lp64_debug 64 (-12) 18 = Ok 6 /\ @osl_int_gcd lp64_debug 64 0 0 = Ok 0.
Proof. split; reflexivity. Qed.

(** On the excluded values the computation is undefined: the recursion reaches
    MIN % -1, or labs is applied to MIN. *)
Theorem C04_gcd_min_refuted :
  @osl_int_gcd lp64_debug 64 (-1) (-2^63) = UB /\ @osl_int_gcd lp64_debug 64 (-2^63) 0 = UB.
Proof. split; vm_compute; reflexivity. Qed.
Print Assumptions C04_gcd_min_refuted.

Theorem C04_lcm : forall (cfg : config) (p a b : Z),
  config_ok cfg -> representable cfg p a -> representable cfg p b ->
  ~ is_min cfg p a -> ~ is_min cfg p b -> representable cfg p (Z.lcm a b) ->
  exists m, osl_int_lcm p a b = Ok m /\ is_lcm a b m.
Proof.
  intros. exists (Z.lcm a b). split; [apply lcm_exact; assumption|apply is_lcm_lcm].
Qed.
Print Assumptions C04_lcm.
Example C04_lcm_ex : @osl_int_lcm lp64_debug 64 (-12) 18 = Ok 36.
Proof. reflexivity. Qed.

(** ** C05: comparisons *)
Theorem C05_order : forall (cfg : config) (p a b : Z),
  config_ok cfg -> representable cfg p a -> representable cfg p b ->
  (p <> 64 \/ long_bits cfg = 64) ->
  (osl_int_eq p a b = Ok true <-> a = b) /\ (osl_int_eq p a b = Ok false <-> a <> b) /\
  (osl_int_ne p a b = Ok true <-> a <> b) /\
  (osl_int_lt p a b = Ok true <-> a < b) /\ (osl_int_lt p a b = Ok false <-> b <= a) /\
  (osl_int_le p a b = Ok true <-> a <= b) /\ (osl_int_le p a b = Ok false <-> b < a) /\
  (osl_int_gt p a b = Ok true <-> b < a) /\ (osl_int_ge p a b = Ok true <-> b <= a).
Proof.
  intros cfg p a b Hc Ha Hb Hw.
  destruct (cmp_exact Hc p a b Ha Hb Hw) as (-> & -> & -> & ->).
  unfold osl_int_ne. rewrite eq_exact by eauto using representable_supported. cbn [bind].
  repeat split; intros H; try (injection H as H); try (f_equal); lia.
Qed.
Print Assumptions C05_order.

Theorem C05_sign : forall (cfg : config) (p v : Z), supported cfg p ->
  (osl_int_pos p v = Ok true <-> 0 < v) /\ (osl_int_neg p v = Ok true <-> v < 0) /\
  (osl_int_zero p v = Ok true <-> v = 0) /\ (osl_int_one p v = Ok true <-> v = 1) /\
  (osl_int_mone p v = Ok true <-> v = -1).
Proof.
  intros cfg p v Hs. destruct (sign_exact p v Hs) as (-> & -> & -> & -> & ->).
  repeat split; intros H; try (injection H as H); try f_equal; lia.
Qed.
Print Assumptions C05_sign.

Theorem C05_divisible : forall (cfg : config) (p a b : Z),
  config_ok cfg -> representable cfg p a -> representable cfg p b -> b <> 0 ->
  ~ (is_min cfg p a /\ b = -1) ->
  exists r, osl_int_divisible p a b = Ok r /\ (r = true <-> (b | a)).
Proof. intros; apply divisible_exact; assumption. Qed.
Print Assumptions C05_divisible.

(** With a 32-bit long the order on 64-bit integers is wrong: it compares only
    the low halves. *)
Theorem C05_order_llp64_refuted : exists a b,
  representable llp64_debug 64 a /\ representable llp64_debug 64 b /\
  b < a /\ @osl_int_lt llp64_debug 64 a b = Ok true.
Proof. exists (2^32), 1. unfold representable. repeat split; try reflexivity; right; left; lia. Qed.
Print Assumptions C05_order_llp64_refuted.

(** ** C06: text round-trip of integers *)
Theorem C06_sprint_sread : forall (cfg : config) (p v old : Z) (rest : str),
  config_ok cfg -> representable cfg p v -> no_digit_head rest ->
  exists s, osl_int_sprint p v = Ok s /\
            exists moved, osl_int_sread (s ++ rest) p old = Ok (moved, v).
Proof.
  intros cfg p v old rest Hc Hv Hr.
  destruct (int_sread_sprint Hc p v old rest Hv Hr) as (s & H1 & H2). eauto.
Qed.
Print Assumptions C06_sprint_sread.
Example C06_ex : exists s, @osl_int_sprint lp64_debug 64 (-7) = Ok s /\ s = lit "  -7" /\
  @osl_int_sread lp64_debug (s ++ lit " 12 ") 64 99 = Ok (1, -7).
Proof. exists (lit "  -7"). repeat split. Qed.

Theorem C06_sprint_txt_sread : forall (cfg : config) (p v old : Z) (rest : str),
  config_ok cfg -> representable cfg p v -> no_digit_head rest ->
  exists s, osl_int_sprint_txt p v = Ok s /\
            exists moved, osl_int_sread (s ++ rest) p old = Ok (moved, v).
Proof.
  intros cfg p v old rest Hc Hv Hr.
  destruct (int_sread_sprint_txt Hc p v old rest Hv Hr) as (s & H1 & H2). eauto.
Qed.
Print Assumptions C06_sprint_txt_sread.

(** osl_int_sread is documented to "update the position in the input string"
    but moves by the number of conversions, 1, whatever the text length: after
    reading "123 45" the position is on "23 45", which reads as 23. *)
Theorem C06_sread_position_refuted : exists (s rest : str) v,
  s = print_Z v /\ no_digit_head rest /\
  @osl_int_sread lp64_debug (s ++ rest) 64 0 = Ok (1, v) /\ List.length s <> 1%nat /\
  exists w, @osl_int_sread lp64_debug (skipn 1 (s ++ rest)) 64 0 = Ok (1, w) /\ w <> 45 /\
  rest = lit " 45".
Proof.
  exists (lit "123"), (lit " 45"), 123. repeat split; try discriminate.
  exists 23. repeat split. discriminate.
Qed.
Print Assumptions C06_sread_position_refuted.

(** At the end of the text no error is raised: the value is left unchanged
    and the position moves backwards. *)
Theorem C06_sread_eof_refuted : forall (old : Z),
  @osl_int_sread lp64_debug (lit "   ") 64 old = Ok (-1, old).
Proof. reflexivity. Qed.
Print Assumptions C06_sread_eof_refuted.

(** The size functions count the binary/decimal digits. *)
Theorem C06_size_in_base_2 : forall (cfg : config) (p v : Z),
  config_ok cfg -> representable cfg p v -> ~ is_min cfg p v -> v <> 0 ->
  exists n, osl_int_size_in_base_2 p v = Ok n /\ 2 ^ (n - 1) <= Z.abs v < 2 ^ n.
Proof.
  intros cfg p v Hc Hv Hm Hnz. exists (Z.log2 (Z.abs v) + 1).
  rewrite size2_exact by assumption. destruct (Z.eqb_spec v 0); [contradiction|].
  split; [reflexivity|]. replace (Z.log2 (Z.abs v) + 1 - 1) with (Z.log2 (Z.abs v)) by lia.
  apply Z.log2_spec. lia.
Qed.
Print Assumptions C06_size_in_base_2.

Theorem C06_size_in_base_10 : forall (cfg : config) (p v : Z),
  config_ok cfg -> p = 32 \/ p = 64 -> representable cfg p v -> ~ is_min cfg p v -> v <> 0 ->
  exists s, osl_int_sprint_txt p (Z.abs v) = Ok s /\ osl_int_size_in_base_10 p v = Ok (zlength s).
Proof.
  intros cfg p v Hc Hp Hv Hm Hnz. exists (print_Z (Z.abs v)).
  assert (F : is_fixed p = true) by (destruct Hp as [-> | ->]; reflexivity).
  split; [unfold osl_int_sprint_txt, pswitch; rewrite F; reflexivity|].
  rewrite size10_exact by assumption. destruct (Z.eqb_spec v 0); [contradiction|reflexivity].
Qed.
Print Assumptions C06_size_in_base_10.

(** ** C07: precision change of a value *)
Theorem C07_set_precision : forall (cfg : config) (p q v : Z),
  supported cfg p -> supported cfg q -> c_int v \/ p = q ->
  osl_int_set_precision p q v = Ok v.
Proof.
  intros cfg p q v Hp Hq [Hv|<-]; [apply set_precision_int; assumption|apply set_precision_same].
Qed.
Print Assumptions C07_set_precision.
Example C07_ex : @osl_int_set_precision lp64_debug 64 0 (-12345) = Ok (-12345).
Proof. reflexivity. Qed.

(** Outside the range of [int], a checked build stops although the value fits
    both precisions, and an NDEBUG build silently stores another value. *)
Theorem C07_set_precision_refuted :
  (forall (cfg : config) p q v, p <> q -> supported cfg p -> ndebug cfg = false -> ~ c_int v ->
     osl_int_set_precision p q v = Err) /\
  (exists v w, representable lp64_release 64 v /\ representable lp64_release 0 v /\
     @osl_int_set_precision lp64_release 64 0 v = Ok w /\ w <> v).
Proof.
  split; [intros; apply set_precision_err; assumption|].
  exists (2^32), 0. unfold representable. repeat split; try discriminate; [right; left; lia|].
  right; right; auto.
Qed.
Print Assumptions C07_set_precision_refuted.
