(** * PropDouble: conversion of coefficients to double (C57) *)
From Coq Require Import ZifyBool.
From Verif Require Import Base IntModel Spec IntProofs DoubleModel.

(** ** Specification *)
(** The integers that are finite doubles: 53 bits of significand, magnitude below 2^1024 *)
Definition is_double (d : Z) : Prop := Z.abs d < 2 ^ 1024 /\ exists m e, 0 <= e /\ Z.abs m < 2 ^ 53 /\ d = m * 2 ^ e.
(** ... and those whose significand of 53 bits is even *)
Definition is_even_double (d : Z) : Prop := exists m e, 0 <= e /\ Z.abs (2 * m) <= 2 ^ 53 /\ d = 2 * m * 2 ^ e.

(** ** Proofs *)
Lemma ulp_cases a : 0 <= a ->
  (ulp a = 1 /\ a < 2 ^ 53) \/
  (exists e, 0 < e /\ ulp a = 2 ^ e /\ 2 ^ 52 * 2 ^ e <= a < 2 ^ 53 * 2 ^ e).
Proof.
  intros Ha. unfold ulp. destruct (Z.le_gt_cases (Z.log2 a) 52) as [H|H].
  - left. rewrite Z.max_l by lia. split; [reflexivity|]. destruct (Z.eq_dec a 0) as [->|H0]; [lia|].
    destruct (Z.log2_spec a ltac:(lia)) as [_ X]. eapply Z.lt_le_trans; [exact X|]. apply Z.pow_le_mono_r; lia.
  - right. rewrite Z.max_r by lia. exists (Z.log2 a - 52). split; [lia|]. split; [reflexivity|].
    assert (0 < a) by (destruct (Z.eq_dec a 0) as [->|]; [cbn in H|]; lia).
    destruct (Z.log2_spec a ltac:(lia)) as [X Y]. rewrite <- !Z.pow_add_r by lia. split.
    + replace (52 + (Z.log2 a - 52)) with (Z.log2 a) by lia. exact X.
    + replace (53 + (Z.log2 a - 52)) with (Z.succ (Z.log2 a)) by lia. exact Y.
Qed.
Lemma double_intro m e : 0 <= e -> Z.abs m <= 2 ^ 53 -> Z.abs (m * 2 ^ e) < 2 ^ 1024 -> is_double (m * 2 ^ e).
Proof.
  intros He Hm Hb. split; [exact Hb|]. destruct (Z.eq_dec (Z.abs m) (2 ^ 53)) as [E|E]; [|exists m, e; repeat split; lia].
  exists (Z.sgn m * 2 ^ 52), (e + 1). split; [lia|]. split; [destruct m; cbn; lia|].
  rewrite Z.pow_add_r by lia. change (2 ^ 1) with 2. rewrite <- (Z.abs_sgn m) at 1. rewrite E. change (2 ^ 53) with (2 ^ 52 * 2). ring.
Qed.
Lemma double_multiple d e : is_double d -> 0 <= e -> 2 ^ 52 * 2 ^ e <= Z.abs d -> (2 ^ e | d).
Proof.
  intros (_ & m & k & Hk & Hm & ->) He H. exists (m * 2 ^ (k - e)). rewrite <- Z.mul_assoc, <- Z.pow_add_r; [|destruct (Z.le_gt_cases e k); [lia|]|lia].
  - do 2 f_equal. lia.
  - exfalso. rewrite Z.abs_mul, (Z.abs_eq (2 ^ k)) in H by (apply Z.pow_nonneg; lia).
    assert (2 * 2 ^ k <= 2 ^ e).
    { change 2 with (2 ^ 1) at 1. rewrite <- Z.pow_add_r by lia. apply Z.pow_le_mono_r; lia. }
    assert (0 < 2 ^ k) by (apply Z.pow_pos_nonneg; lia). change (2 ^ 53) with (2 * 2 ^ 52) in Hm. nia.
Qed.
(** The doubles around [a]: none strictly between the multiples of the last bit. *)
Lemma double_gap a d : 0 <= a -> is_double d -> d <= a / ulp a * ulp a \/ (a / ulp a + 1) * ulp a <= d.
Proof.
  intros Ha Hd. destruct (ulp_cases a Ha) as [[-> Hlt]|(e & He & E & Hlo & Hhi)].
  - rewrite Z.div_1_r. lia.
  - rewrite E. assert (HP : 0 < 2 ^ e) by (apply Z.pow_pos_nonneg; lia). set (P := 2 ^ e) in *.
    destruct (Z.le_gt_cases d (a / P * P)) as [H|H]; [now left|right].
    assert (Hq : 2 ^ 52 <= a / P) by (apply Z.div_le_lower_bound; lia).
    destruct (double_multiple d e Hd ltac:(lia)) as (x & Hx); [subst P; nia|]. fold P in Hx. subst d.
    assert (a / P < x) by nia. nia.
Qed.
Lemma div_bounds a : 0 <= a -> a / ulp a <= 2 ^ 53 - 1 /\ 0 <= a / ulp a /\ 0 < ulp a /\ a = a / ulp a * ulp a + a mod ulp a /\ 0 <= a mod ulp a < ulp a.
Proof.
  intros Ha. assert (HP : 0 < ulp a) by (unfold ulp; apply Z.pow_pos_nonneg; lia).
  pose proof (Z.div_mod a (ulp a) ltac:(lia)) as E. pose proof (Z.mod_pos_bound a (ulp a) HP) as B.
  split; [|split; [apply Z.div_pos; lia|split; [exact HP|split; [lia|exact B]]]].
  destruct (ulp_cases a Ha) as [[-> Hlt]|(e & He & E' & Hlo & Hhi)]; [rewrite Z.div_1_r; lia|].
  rewrite E' in *. assert (a / 2 ^ e < 2 ^ 53); [apply Z.div_lt_upper_bound; lia|lia].
Qed.
Lemma ulp_pow a : exists e, 0 <= e /\ ulp a = 2 ^ e.
Proof. unfold ulp. exists (Z.max 0 (Z.log2 a - 52)). split; [lia|reflexivity]. Qed.
Lemma truncated_double a : 0 <= a < 2 ^ 1024 -> is_double (truncated a).
Proof.
  intros Ha. destruct (div_bounds a ltac:(lia)) as (H1 & H2 & H3 & H4 & H5). unfold truncated. destruct (ulp_pow a) as (e & He & E).
  rewrite E in *. apply double_intro; [exact He|lia|]. rewrite Z.abs_eq by nia. lia.
Qed.
Lemma nearest_double a : 0 <= a < 2 ^ 1023 -> is_double (nearest a).
Proof.
  intros Ha. destruct (div_bounds a ltac:(lia)) as (H1 & H2 & H3 & H4 & H5). unfold nearest. destruct (ulp_pow a) as (e & He & E).
  assert (HU : ulp a <= 2 ^ 1023).
  { unfold ulp. apply Z.pow_le_mono_r; [lia|]. destruct (Z.eq_dec a 0) as [->|]; [cbn; lia|].
    assert (Z.log2 a < 1023) by (apply Z.log2_lt_pow2; lia). lia. }
  change (2 ^ 1024) with (2 ^ 1023 * 2) in *. pose proof (Z.pow_pos_nonneg 2 1023).
  rewrite E in *. destruct (_ || _); (apply double_intro; [exact He|lia|]; rewrite Z.abs_eq by nia; lia || nia).
Qed.
Lemma nearest_dist a : 0 <= a -> forall d, is_double d -> Z.abs (nearest a - a) <= Z.abs (d - a) /\
  (d <> nearest a -> Z.abs (nearest a - a) = Z.abs (d - a) -> is_even_double (nearest a)).
Proof.
  intros Ha d Hd. destruct (div_bounds a Ha) as (H1 & H2 & H3 & H4 & H5). pose proof (double_gap a d Ha Hd) as G.
  destruct (ulp_pow a) as (e & He & E).
  unfold nearest. set (P := ulp a) in *. set (q := a / P) in *. set (r := a mod P) in *.
  destruct (Z.ltb_spec P (2 * r)) as [L|L]; cbn [orb].
  - split; [|intros Hne Heq; exfalso]; nia.
  - destruct (Z.eqb_spec P (2 * r)) as [Q|Q]; cbn [andb].
    + destruct (Z.odd q) eqn:O.
      * split; [nia|]. intros _ _. rewrite Z.odd_spec in O. destruct O as (x & Hx). exists (x + 1), e. split; [exact He|]. split; [lia|]. rewrite <- E. rewrite Hx. ring.
      * split; [nia|]. intros _ _. assert (EV : Z.even q = true) by (rewrite <- Z.negb_odd, O; reflexivity). rewrite Z.even_spec in EV.
        destruct EV as (x & Hx). exists x, e. split; [exact He|]. split; [lia|]. rewrite <- E. rewrite Hx. ring.
    + split; [|intros Hne Heq; exfalso]; nia.
Qed.
Lemma double_opp d : is_double d -> is_double (- d).
Proof. intros (H & m & e & He & Hm & ->). split; [lia|]. exists (- m), e. repeat split; lia. Qed.
Lemma even_opp d : is_even_double d -> is_even_double (- d).
Proof. intros (m & e & He & Hm & ->). exists (- m), e. repeat split; lia. Qed.
Lemma small_exact a : 0 <= a -> is_double a -> truncated a = a /\ nearest a = a.
Proof.
  intros Ha Hd. destruct (div_bounds a Ha) as (H1 & H2 & H3 & H4 & H5). pose proof (double_gap a a Ha Hd) as G.
  assert (R : a mod ulp a = 0) by nia. unfold truncated, nearest. rewrite R in *. split; [lia|].
  destruct (Z.ltb_spec (ulp a) (2 * 0)); [lia|]. destruct (Z.eqb_spec (ulp a) (2 * 0)); [lia|]. cbn [orb andb]. lia.
Qed.
Lemma fixed_size cfg p v : config_ok cfg -> representable cfg p v -> p <> 0 -> Z.abs v < 2 ^ 1023.
Proof.
  intros Hc H Hp. assert (X : Z.abs v <= 2 ^ 63).
  { destruct H as [(_ & H)|[(_ & H)|(H & _)]]; [|lia|lia]. assert (long_bits cfg - 1 <= 63) by (destruct Hc as [-> | ->]; lia).
    assert (0 <= long_bits cfg - 1) by (destruct Hc as [-> | ->]; lia). pose proof (Z.pow_le_mono_r 2 _ 63 ltac:(lia) H0). lia. }
  eapply Z.le_lt_trans; [exact X|]. apply Z.pow_lt_mono_r; lia.
Qed.
Lemma representable_supported cfg p v : representable cfg p v -> supported cfg p.
Proof. unfold representable, supported. tauto. Qed.

(** ** Theorems *)
(** In single and double precision the result is the double nearest to the value, the even one of two. *)
Theorem C57_nearest : forall (cfg : config) p v, config_ok cfg -> representable cfg p v -> p <> 0 ->
  exists d, osl_int_get_d p v = Ok (Finite d) /\ is_double d /\
    (forall d', is_double d' -> Z.abs (d - v) <= Z.abs (d' - v)) /\
    (forall d', is_double d' -> d' <> d -> Z.abs (d - v) = Z.abs (d' - v) -> is_even_double d).
Proof.
  intros cfg p v Hc Hr Hp. pose proof (fixed_size cfg p v Hc Hr Hp) as Hv. exists (Z.sgn v * nearest (Z.abs v)). split.
  - unfold osl_int_get_d, pswitch. destruct (representable_supported _ _ _ Hr) as [-> | [-> | [-> _]]]; [reflexivity|reflexivity|congruence].
  - pose proof (nearest_double (Z.abs v) ltac:(lia)) as Hd.
    assert (Hz : v = 0 -> nearest (Z.abs v) = 0) by (intros ->; reflexivity).
    destruct (Z.lt_trichotomy v 0) as [L|[->|L]].
    + rewrite (Z.sgn_neg v L), (Z.abs_neq v ltac:(lia)) in *. replace (-1 * nearest (- v)) with (- nearest (- v)) by lia.
      split; [now apply double_opp|]. split.
      * intros d' H'. pose proof (proj1 (nearest_dist (- v) ltac:(lia) _ (double_opp _ H'))). lia.
      * intros d' H' Hne Heq. apply even_opp. apply (nearest_dist (- v) ltac:(lia) _ (double_opp _ H')); lia.
    + cbn. split; [split; [lia|exists 0, 0; cbn; lia]|]. split; [intros; lia|]. intros d' H' Hne Heq. exists 0, 0. cbn. lia.
    + rewrite (Z.sgn_pos v L), (Z.abs_eq v ltac:(lia)) in *. rewrite Z.mul_1_l. split; [exact Hd|]. split.
      * intros d' H'. apply (nearest_dist v ltac:(lia) d' H').
      * intros d' H' Hne Heq. apply (nearest_dist v ltac:(lia) d' H'); lia.
Qed.
Print Assumptions C57_nearest.
(** With GMP numbers the result is the largest double between zero and the value (the value is truncated), or an
    infinity of the sign of the value when it is out of range. *)
Theorem C57_truncated : forall (cfg : config) v, gmp cfg = true -> Z.abs v < 2 ^ 1024 ->
  exists d, osl_int_get_d PRECISION_MP v = Ok (Finite d) /\ is_double d /\
    0 <= d * Z.sgn v <= Z.abs v /\ forall d', is_double d' -> d' * Z.sgn v <= Z.abs v -> d' * Z.sgn v <= d * Z.sgn v.
Proof.
  intros cfg v Hg Hv. exists (Z.sgn v * truncated (Z.abs v)). split.
  - unfold osl_int_get_d, pswitch, is_mp. rewrite Hg. change (is_fixed PRECISION_MP) with false. change (PRECISION_MP =? PRECISION_MP) with true. cbn [andb].
    destruct (Z.leb_spec (2 ^ 1024) (Z.abs v)); [lia|reflexivity].
  - pose proof (truncated_double (Z.abs v) ltac:(lia)) as Hd. destruct (div_bounds (Z.abs v) ltac:(lia)) as (H1 & H2 & H3 & H4 & H5). fold (truncated (Z.abs v)) in H4.
    assert (T : 0 <= truncated (Z.abs v)) by (unfold truncated; nia).
    assert (G : forall d', is_double d' -> d' <= Z.abs v -> d' <= truncated (Z.abs v)).
    { intros d' H' Hle. destruct (double_gap (Z.abs v) d' ltac:(lia) H') as [G|G]; [exact G|]. nia. }
    destruct (Z.lt_trichotomy v 0) as [L|[->|L]].
    + rewrite (Z.sgn_neg v L) in *. split; [replace (-1 * truncated (Z.abs v)) with (- truncated (Z.abs v)) by lia; now apply double_opp|]. split; [lia|].
      intros d' H' Hle. specialize (G _ (double_opp _ H')). lia.
    + cbn. split; [split; [lia|exists 0, 0; cbn; lia]|]. split; [lia|]. intros; lia.
    + rewrite (Z.sgn_pos v L) in *. rewrite Z.mul_1_l. split; [exact Hd|]. split; [lia|]. intros d' H' Hle. specialize (G _ H'). lia.
Qed.
Print Assumptions C57_truncated.
Theorem C57_overflow : forall (cfg : config) v, gmp cfg = true -> 2 ^ 1024 <= Z.abs v ->
  osl_int_get_d PRECISION_MP v = Ok (Infinite (v <? 0)).
Proof.
  intros cfg v Hg Hv. unfold osl_int_get_d, pswitch, is_mp. rewrite Hg. change (is_fixed PRECISION_MP) with false. change (PRECISION_MP =? PRECISION_MP) with true. cbn [andb].
  destruct (Z.leb_spec (2 ^ 1024) (Z.abs v)); [reflexivity|lia].
Qed.
Print Assumptions C57_overflow.
(** Nothing is lost on values that are doubles, among them all those of at most 53 bits, in every precision. *)
Theorem C57_exact : forall (cfg : config) p v, config_ok cfg -> representable cfg p v -> is_double v -> osl_int_get_d p v = Ok (Finite v).
Proof.
  intros cfg p v Hc Hr Hd. assert (Ha : is_double (Z.abs v)) by (destruct (Z.abs_spec v) as [[_ ->]|[_ ->]]; [assumption|now apply double_opp]).
  destruct (small_exact (Z.abs v) ltac:(lia) Ha) as [H1 H2]. unfold osl_int_get_d, pswitch. rewrite H1, H2, Z.mul_comm, Z.abs_sgn.
  destruct (representable_supported _ _ _ Hr) as [-> | [-> | [-> Hg]]]; try reflexivity. unfold is_mp. rewrite Hg.
  destruct (Z.leb_spec (2 ^ 1024) (Z.abs v)); [destruct Hd; lia|]. reflexivity.
Qed.
Print Assumptions C57_exact.
Theorem C57_small : forall v, Z.abs v <= 2 ^ 53 -> is_double v.
Proof.
  intros v H. replace v with (v * 2 ^ 0) by (cbn; lia). apply double_intro; [lia|exact H|]. change (2 ^ 0) with 1. rewrite Z.mul_1_r.
  eapply Z.le_lt_trans; [exact H|]. apply Z.pow_lt_mono_r; lia.
Qed.
Print Assumptions C57_small.
(** Order is kept (but not strictly): a smaller coefficient never has a larger double. *)
Theorem C57_monotone : forall (cfg : config) p v w dv dw, config_ok cfg -> representable cfg p v -> representable cfg p w ->
  osl_int_get_d p v = Ok (Finite dv) -> osl_int_get_d p w = Ok (Finite dw) -> v <= w -> dv <= dw.
Proof.
  intros cfg p v w dv dw Hc Hv Hw Ev Ew Hle. destruct (Z.eq_dec v w) as [->|Hne]; [assert (Finite dv = Finite dw) as X by congruence; injection X; lia|].
  destruct (Z.eq_dec p 0) as [->|Hp].
  - assert (Hg : gmp cfg = true) by (destruct Hv as [(X & _)|[(X & _)|(_ & X)]]; [lia|lia|exact X]).
    assert (Sv : Z.abs v < 2 ^ 1024). { destruct (Z.lt_ge_cases (Z.abs v) (2 ^ 1024)); [assumption|]. pose proof (C57_overflow cfg v Hg ltac:(assumption)) as X. change PRECISION_MP with 0 in X. congruence. }
    assert (Sw : Z.abs w < 2 ^ 1024). { destruct (Z.lt_ge_cases (Z.abs w) (2 ^ 1024)); [assumption|]. pose proof (C57_overflow cfg w Hg ltac:(assumption)) as X. change PRECISION_MP with 0 in X. congruence. }
    destruct (C57_truncated cfg v Hg Sv) as (d1 & E1 & D1 & B1 & M1). destruct (C57_truncated cfg w Hg Sw) as (d2 & E2 & D2 & B2 & M2).
    change PRECISION_MP with 0 in *. assert (d1 = dv) as -> by congruence. assert (d2 = dw) as -> by congruence.
    assert (Z0 : osl_int_get_d 0 0 = Ok (Finite 0)) by (apply C57_exact; [exact Hc|right; right; auto|apply C57_small; lia]).
    assert (Zv : v = 0 -> dv = 0) by (intros ->; congruence). assert (Zw : w = 0 -> dw = 0) by (intros ->; congruence).
    specialize (M1 _ D2). specialize (M2 _ D1).
    destruct (Z.lt_trichotomy v 0) as [L|[L|L]]; destruct (Z.lt_trichotomy w 0) as [L'|[L'|L']]; try lia;
      rewrite ?(Z.sgn_neg _ L), ?(Z.sgn_neg _ L'), ?(Z.sgn_pos _ L), ?(Z.sgn_pos _ L') in *; lia.
  - destruct (C57_nearest cfg p v Hc Hv Hp) as (d1 & E1 & D1 & M1 & T1). destruct (C57_nearest cfg p w Hc Hw Hp) as (d2 & E2 & D2 & M2 & T2).
    assert (d1 = dv) as -> by congruence. assert (d2 = dw) as -> by congruence.
    specialize (M1 _ D2). specialize (M2 _ D1). lia.
Qed.
Print Assumptions C57_monotone.

(** Witnesses, and a value that loses its last bits: 2^53 + 3, whose neighbours are 2^53 + 2 and 2^53 + 4. *)
Example C57_hyp : representable lp64_debug 64 (2 ^ 53 + 3) /\ representable lp64_debug 0 (2 ^ 53 + 3) /\ is_double (2 ^ 53 + 4) /\
  is_double (- 2 ^ 60) /\ config_ok lp64_debug.
Proof.
  split; [right; left; lia|]. split; [right; right; auto|].
  split; [split; [lia|exists (2 ^ 52 + 2), 1; lia]|]. split; [split; [lia|exists (-1), 60; lia]|now right].
Qed.
(** The same value gives two doubles, according to the precision it is stored in; and two values give one double. *)
Theorem C57_precision_refuted : exists v w d d', representable lp64_debug 64 v /\ representable lp64_debug 0 v /\ representable lp64_debug 64 w /\
  @osl_int_get_d lp64_debug 64 v = Ok (Finite d) /\ @osl_int_get_d lp64_debug 0 v = Ok (Finite d') /\ d <> d' /\
  v <> w /\ @osl_int_get_d lp64_debug 64 w = Ok (Finite d).
Proof.
  exists (2 ^ 53 + 3), (2 ^ 53 + 4), (2 ^ 53 + 4), (2 ^ 53 + 2).
  split; [right; left; lia|]. split; [right; right; auto|]. split; [right; left; lia|].
  split; [vm_compute; reflexivity|]. split; [vm_compute; reflexivity|]. split; [lia|]. split; [lia|]. vm_compute. reflexivity.
Qed.
Print Assumptions C57_precision_refuted.
