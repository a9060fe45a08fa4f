(** * Property C52: conversions between the integers of the library and the C types int, long and long long (source/int.c) *)
From Verif Require Import Base IntModel Spec IntProofs.

(** A C [long] and a C [long long] *)
Definition c_long (c : config) (i : Z) : Prop := - 2 ^ (long_bits c - 1) <= i <= 2 ^ (long_bits c - 1) - 1.
Definition c_long_long (i : Z) : Prop := - 2 ^ 63 <= i <= 2 ^ 63 - 1.

Section P.
Context (cfg : config).

Lemma long_lit : config_ok cfg -> (long_bits cfg = 32 /\ 2 ^ (long_bits cfg - 1) = 2 ^ 31) \/ (long_bits cfg = 64 /\ 2 ^ (long_bits cfg - 1) = 2 ^ 63).
Proof. intros [-> | ->]; [left|right]; split; reflexivity. Qed.
Lemma wrap_spec bits v : 1 <= bits -> - 2 ^ (bits - 1) <= wrap bits v <= 2 ^ (bits - 1) - 1 /\ (2 ^ bits | wrap bits v - v).
Proof.
  intros H. unfold wrap. assert (E : 2 ^ bits = 2 * 2 ^ (bits - 1)) by (rewrite <- Z.pow_succ_r by lia; f_equal; lia).
  assert (0 < 2 ^ (bits - 1)) by (apply Z.pow_pos_nonneg; lia).
  pose proof (Z.mod_pos_bound (v + 2 ^ (bits - 1)) (2 ^ bits) ltac:(lia)). split; [lia|].
  exists (- ((v + 2 ^ (bits - 1)) / 2 ^ bits)). pose proof (Z.div_mod (v + 2 ^ (bits - 1)) (2 ^ bits) ltac:(lia)). lia.
Qed.
Lemma range bits v : 1 <= bits -> fits bits v = true <-> - 2 ^ (bits - 1) <= v <= 2 ^ (bits - 1) - 1.
Proof. intros _. rewrite fits_prop. unfold smin, smax. reflexivity. Qed.

(** ** From the library *)

(** osl_int_get_si is exact on the values of an int; on the others a checked build stops and a release build keeps the low 32 bits. *)
Theorem C52_get_si : forall p v, supported cfg p ->
  (c_int v -> osl_int_get_si p v = Ok v) /\
  (~ c_int v -> if ndebug cfg then exists w, osl_int_get_si p v = Ok w /\ c_int w /\ (2 ^ 32 | w - v) else osl_int_get_si p v = Err).
Proof.
  intros p v Hp. assert (G : forall x, osl_int_get_si p v = x <->
    (if ndebug cfg then Ok (wrap 32 v) else if INT_MAX <? v then Err else if v <? INT_MIN then Err else Ok v) = x).
  { intros x. unfold osl_int_get_si, pswitch. destruct (supported_cases _ Hp) as [[-> _]|[-> [-> _]]]; reflexivity. }
  split.
  - intros Hv. apply G. destruct (ndebug cfg).
    + rewrite wrap_fits; [reflexivity|lia|]. apply range; [lia|exact Hv].
    + unfold c_int, INT_MAX, INT_MIN, smax, smin in *. destruct (Z.ltb_spec (2 ^ (32 - 1) - 1) v); [lia|]. destruct (Z.ltb_spec v (- 2 ^ (32 - 1))); [lia|reflexivity].
  - intros Hv. destruct (ndebug cfg).
    + exists (wrap 32 v). split; [now apply G|]. apply (wrap_spec 32 v). lia.
    + apply G. unfold c_int, INT_MAX, INT_MIN, smax, smin in *. destruct (Z.ltb_spec (2 ^ (32 - 1) - 1) v); [reflexivity|]. destruct (Z.ltb_spec v (- 2 ^ (32 - 1))); [reflexivity|lia].
Qed.
Lemma shape p : supported cfg p -> (p = PRECISION_SP) \/ (p = PRECISION_DP) \/ (p = PRECISION_MP /\ gmp cfg = true).
Proof. unfold supported, PRECISION_SP, PRECISION_DP, PRECISION_MP. tauto. Qed.
Lemma mp_true : gmp cfg = true -> is_mp PRECISION_MP = true.
Proof. intros H. unfold is_mp. rewrite H. reflexivity. Qed.
(** osl_int_get_long: a release build keeps the low bits (what GMP returns then is not modelled). *)
Theorem C52_get_long : forall p v, config_ok cfg -> representable cfg p v ->
  (c_long cfg v -> osl_int_get_long p v = Ok v) /\
  (~ c_long cfg v -> ndebug cfg = false -> osl_int_get_long p v = Err) /\
  (~ c_long cfg v -> ndebug cfg = true -> p = 64 -> exists w, osl_int_get_long p v = Ok w /\ c_long cfg w /\ (2 ^ long_bits cfg | w - v)).
Proof.
  intros p v Hc Hr. assert (Hl : 1 <= long_bits cfg) by (destruct Hc as [-> | ->]; lia).
  unfold c_long. destruct (shape p (representable_supported _ _ Hr)) as [->|[->|[-> Hg]]]; unfold osl_int_get_long.
  - change (PRECISION_SP =? PRECISION_SP) with true. cbv iota. split; [reflexivity|].
    assert (c_long cfg v) as Hv by (destruct Hr as [[_ H]|[[H _]|[H _]]]; [exact H|discriminate H|discriminate H]). split; intros H; now destruct H.
  - change (PRECISION_DP =? PRECISION_SP) with false. change (PRECISION_DP =? PRECISION_DP) with true. cbv iota. unfold smax, smin. split; [|split].
    + intros Hv. destruct (ndebug cfg); [rewrite wrap_fits; [reflexivity|lia|now apply range]|].
      destruct (Z.ltb_spec (2 ^ (long_bits cfg - 1) - 1) v); [lia|]. destruct (Z.ltb_spec v (- 2 ^ (long_bits cfg - 1))); [lia|reflexivity].
    + intros Hv ->. destruct (Z.ltb_spec (2 ^ (long_bits cfg - 1) - 1) v); [reflexivity|]. destruct (Z.ltb_spec v (- 2 ^ (long_bits cfg - 1))); [reflexivity|lia].
    + intros Hv -> _. exists (wrap (long_bits cfg) v). split; [reflexivity|]. now apply wrap_spec.
  - change (PRECISION_MP =? PRECISION_SP) with false. change (PRECISION_MP =? PRECISION_DP) with false. cbv iota. rewrite mp_true by assumption. split; [|split].
    + intros Hv. apply (range _ _ Hl) in Hv. rewrite Hv. reflexivity.
    + intros Hv ->. destruct (fits (long_bits cfg) v) eqn:E; [apply (range _ _ Hl) in E; lia|reflexivity].
    + intros _ _ H. discriminate H.
Qed.
(** osl_int_get_long_long is exact on the values of a long only. *)
Theorem C52_get_long_long : forall p v, config_ok cfg -> representable cfg p v -> c_long cfg v -> osl_int_get_long_long p v = Ok v.
Proof.
  intros p v Hc Hr Hv. assert (Hl : 1 <= long_bits cfg) by (destruct Hc as [-> | ->]; lia). apply (range _ _ Hl) in Hv.
  destruct (shape p (representable_supported _ _ Hr)) as [->|[->|[-> Hg]]]; unfold osl_int_get_long_long.
  - reflexivity.
  - change (PRECISION_DP =? PRECISION_SP) with false. change (PRECISION_DP =? PRECISION_DP) with true. cbv iota. rewrite wrap_fits; [reflexivity|lia|exact Hv].
  - change (PRECISION_MP =? PRECISION_SP) with false. change (PRECISION_MP =? PRECISION_DP) with false. cbv iota. rewrite mp_true by assumption. now rewrite Hv.
Qed.

(** ** To the library: the value given is the value stored *)
Theorem C52_set : forall p i, config_ok cfg -> supported cfg p ->
  (c_int i -> osl_int_set_si p i = Ok i /\ osl_int_init_set_si p i = Ok i) /\
  (c_long cfg i -> osl_int_set_long p i = Ok i /\ (p <> 0 -> osl_int_init_set_long p i = Ok i)) /\
  (c_long_long i -> p = 64 \/ c_long cfg i -> osl_int_set_long_long p i = Ok i /\ (p <> 0 -> osl_int_init_set_long_long p i = Ok i)) /\
  (c_long_long i -> ~ c_long cfg i -> p <> 64 -> ndebug cfg = false -> osl_int_set_long_long p i = Err).
Proof.
  intros p i Hc Hp. assert (Hl : 1 <= long_bits cfg) by (destruct Hc as [-> | ->]; lia).
  assert (S0 : forall x : res Z, pswitch p x x = x) by (intros x; unfold pswitch; destruct (supported_cases _ Hp) as [[-> _]|[-> [-> _]]]; reflexivity).
  assert (M0 : p <> 0 -> is_mp p = false) by (intros H; unfold is_mp, PRECISION_MP; destruct (Z.eqb_spec p 0); [contradiction|reflexivity]).
  assert (L : p = 64 \/ c_long cfg i -> osl_int_set_long_long p i = Ok i).
  { intros H. unfold osl_int_set_long_long. destruct (shape p Hp) as [->|[->|[-> Hg]]].
    - destruct H as [H|H]; [discriminate H|]. change (PRECISION_SP =? PRECISION_SP) with true. cbv iota zeta.
      destruct (ndebug cfg); [now rewrite wrap_fits by (trivial; try lia; now apply range)|]. unfold c_long, smax, smin in *.
      destruct (Z.ltb_spec (2 ^ (long_bits cfg - 1) - 1) i); [lia|]. destruct (Z.ltb_spec i (- 2 ^ (long_bits cfg - 1))); [lia|reflexivity].
    - reflexivity.
    - destruct H as [H|H]; [discriminate H|]. change (PRECISION_MP =? PRECISION_SP) with false. change (PRECISION_MP =? PRECISION_DP) with false. cbv iota zeta. rewrite mp_true by assumption.
      destruct (ndebug cfg); [now rewrite wrap_fits by (trivial; try lia; now apply range)|]. unfold c_long, smax, smin in *.
      destruct (Z.ltb_spec (2 ^ (long_bits cfg - 1) - 1) i); [lia|]. destruct (Z.ltb_spec i (- 2 ^ (long_bits cfg - 1))); [lia|reflexivity]. }
  split; [|split; [|split]].
  - intros _. split; [apply S0|]. unfold osl_int_init_set_si. apply S0.
  - intros _. split; [apply S0|]. intros H. unfold osl_int_init_set_long. rewrite (M0 H). apply S0.
  - intros _ H. split; [now apply L|]. intros H0. unfold osl_int_init_set_long_long. rewrite (M0 H0). now apply L.
  - intros _ H Hne Hd. unfold osl_int_set_long_long. rewrite Hd.
    assert (E : (if smax (long_bits cfg) <? i then Err else if i <? smin (long_bits cfg) then Err else Ok i) = (Err : res Z)).
    { unfold c_long, smax, smin in *. destruct (Z.ltb_spec (2 ^ (long_bits cfg - 1) - 1) i); [reflexivity|]. destruct (Z.ltb_spec i (- 2 ^ (long_bits cfg - 1))); [reflexivity|lia]. }
    rewrite E. destruct (shape p Hp) as [->|[->|[-> Hg]]]; [reflexivity|contradiction Hne; reflexivity|]. change (PRECISION_MP =? PRECISION_SP) with false. change (PRECISION_MP =? PRECISION_DP) with false. cbv iota. now rewrite mp_true.
Qed.
(** Back and forth *)
Theorem C52_set_get : forall p i, config_ok cfg -> supported cfg p ->
  (c_int i -> bind (osl_int_set_si p i) (osl_int_get_si p) = Ok i) /\
  (c_long cfg i -> bind (osl_int_set_long p i) (osl_int_get_long p) = Ok i /\ bind (osl_int_set_long_long p i) (osl_int_get_long_long p) = Ok i).
Proof.
  intros p i Hc Hp. destruct (C52_set p i Hc Hp) as (H1 & H2 & H3 & _). assert (Hl : 1 <= long_bits cfg <= 64) by (destruct Hc as [-> | ->]; lia).
  assert (R : c_long cfg i -> representable cfg p i).
  { intros H. unfold representable, c_long in *. destruct Hp as [->|[->|[-> Hg]]]; [left; lia|right; left|right; right; split; trivial].
    split; [reflexivity|]. destruct (long_lit Hc) as [[_ E]|[_ E]]; rewrite E in H; lia. }
  split.
  - intros Hi. rewrite (proj1 (H1 Hi)). cbn [bind]. now apply C52_get_si.
  - intros Hi. split.
    + rewrite (proj1 (H2 Hi)). cbn [bind]. apply C52_get_long; auto.
    + assert (c_long_long i) as Hll by (unfold c_long, c_long_long in *; destruct (long_lit Hc) as [[_ E]|[_ E]]; rewrite E in Hi; lia).
      rewrite (proj1 (H3 Hll (or_intror Hi))). cbn [bind]. apply C52_get_long_long; auto.
Qed.
(** Assignment and exchange *)
Theorem C52_assign_swap : forall p a b, supported cfg p ->
  osl_int_assign p a = Ok a /\ osl_int_init_set p a = Ok a /\ osl_int_swap p a b = Ok (b, a) /\ osl_int_init p = Ok 0.
Proof.
  intros p a b Hp. assert (S0 : forall A (x : res A), pswitch p x x = x) by (intros A x; unfold pswitch; destruct (supported_cases _ Hp) as [[-> _]|[-> [-> _]]]; reflexivity).
  unfold osl_int_init_set, osl_int_assign, osl_int_init, osl_int_swap. rewrite !S0. cbn [bind]. rewrite ?S0. repeat split; reflexivity.
Qed.
(** A precision the library was not built with stops the process. *)
Theorem C52_unknown_precision : forall p a b, ~ supported cfg p ->
  osl_int_get_si p a = Err /\ osl_int_get_long p a = Err /\ osl_int_get_long_long p a = Err /\ osl_int_set_si p a = Err /\
  osl_int_set_long p a = Err /\ osl_int_set_long_long p a = Err /\ osl_int_init p = Err /\ osl_int_assign p a = Err /\ osl_int_swap p a b = Err /\
  osl_int_is_precision_supported p = false.
Proof.
  intros p a b Hp. assert (p <> 32 /\ p <> 64 /\ (p = 0 -> gmp cfg = false)) as (H1 & H2 & H3).
  { unfold supported in Hp. split; [tauto|]. split; [tauto|]. intros ->. destruct (gmp cfg); [tauto|reflexivity]. }
  assert (E1 : (p =? PRECISION_SP) = false) by (now apply Z.eqb_neq). assert (E2 : (p =? PRECISION_DP) = false) by (now apply Z.eqb_neq).
  assert (E3 : is_mp p = false). { unfold is_mp, PRECISION_MP. destruct (Z.eqb_spec p 0) as [->|]; [now rewrite H3|reflexivity]. }
  assert (E0 : is_fixed p = false) by (unfold is_fixed; now rewrite E1, E2).
  unfold osl_int_get_si, osl_int_get_long, osl_int_get_long_long, osl_int_set_si, osl_int_set_long, osl_int_set_long_long, osl_int_init, osl_int_assign, osl_int_swap, osl_int_is_precision_supported, pswitch.
  rewrite E0, E1, E2, E3. fold (is_mp p). rewrite E3. repeat split.
Qed.
End P.
Print Assumptions C52_get_si.
Print Assumptions C52_get_long.
Print Assumptions C52_get_long_long.
Print Assumptions C52_set.
Print Assumptions C52_set_get.
Print Assumptions C52_assign_swap.
Print Assumptions C52_unknown_precision.

(** ** Exceptions *)

(** With a 32-bit long, osl_int_get_long_long loses the high bits of a long long, in checked builds too: it casts to long. *)
Theorem C52_get_long_long_refuted : forall cfg, long_bits cfg = 32 -> exists v, representable cfg 64 v /\ c_long_long v /\ @osl_int_get_long_long cfg 64 v = Ok 0 /\ v <> 0.
Proof.
  intros cfg Hl. exists (2 ^ 32). split; [right; left; lia|]. split; [unfold c_long_long; lia|]. split; [|lia].
  unfold osl_int_get_long_long. change (64 =? PRECISION_SP) with false. change (64 =? PRECISION_DP) with true. cbv iota. rewrite Hl. reflexivity.
Qed.
Print Assumptions C52_get_long_long_refuted.
(** With GMP, osl_int_init_set_long and osl_int_init_set_long_long store into a number that was never initialised. *)
Theorem C52_init_set_long_refuted : forall cfg i, gmp cfg = true -> c_long cfg i -> config_ok cfg -> @osl_int_init_set_long cfg 0 i = UB /\ @osl_int_init_set_long_long cfg 0 i = UB.
Proof.
  intros cfg i Hg Hi Hc. unfold osl_int_init_set_long, osl_int_init_set_long_long, is_mp. rewrite Hg. cbn [andb Z.eqb PRECISION_MP]. split; [reflexivity|].
  assert (E : fits (long_bits cfg) i = true) by (apply range; [destruct Hc as [-> | ->]; lia|exact Hi]). rewrite E. cbn [negb]. now rewrite andb_false_r.
Qed.
Print Assumptions C52_init_set_long_refuted.
Example C52_witness : supported lp64_debug 64 /\ c_int (-5) /\ ~ c_int (2 ^ 40) /\ c_long lp64_debug (2 ^ 40) /\
  @osl_int_get_si lp64_debug 64 (-5) = Ok (-5) /\ @osl_int_get_si lp64_debug 64 (2 ^ 40) = Err /\
  @osl_int_get_long lp64_debug 0 (2 ^ 40) = Ok (2 ^ 40) /\ @osl_int_get_long lp64_debug 0 (2 ^ 70) = Err /\
  @osl_int_get_si lp64_release 64 (2 ^ 40 + 3) = Ok 3 /\ ~ supported lp64_debug 7.
Proof.
  unfold supported, c_int, c_long. cbn [long_bits lp64_debug]. change (64 - 1) with 63. split; [tauto|]. split; [lia|]. split; [lia|]. split; [lia|].
  repeat (split; [reflexivity|]). intros [H|[H|[H _]]]; discriminate H.
Qed.
