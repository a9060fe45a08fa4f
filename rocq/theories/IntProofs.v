(** * Proofs about the model of int.c *)
From Coq Require Import ZifyBool ZifyNat.
From Verif Require Import Base IntModel Spec.
Ltac Zify.zify_post_hook ::= Z.div_mod_to_equations.

Section INTPROOFS.
Context {cfg : config}.
Hypothesis Hcfg : config_ok cfg.

Lemma pow_vals : 2 ^ 31 = 2147483648 /\ 2 ^ 32 = 4294967296 /\
  2 ^ 63 = 9223372036854775808 /\ 2 ^ 64 = 18446744073709551616.
Proof. repeat split; reflexivity. Qed.

(* the three shapes of a supported precision *)
Lemma supported_cases p : supported cfg p ->
  (is_fixed p = true /\ (p = 32 \/ p = 64)) \/ (is_fixed p = false /\ is_mp p = true /\ p = 0).
Proof.
  unfold supported, is_fixed, is_mp, PRECISION_SP, PRECISION_DP, PRECISION_MP.
  intros [H|[H|[H Hg]]]; subst; cbn; rewrite ?Hg; auto.
Qed.

Lemma representable_supported p v : representable cfg p v -> supported cfg p.
Proof. unfold representable, supported; tauto. Qed.

Lemma representable_dec p v : {representable cfg p v} + {~ representable cfg p v}.
Proof.
  unfold representable.
  destruct (Z.eq_dec p 32) as [E1|E1]; [|destruct (Z.eq_dec p 64) as [E2|E2]; [|destruct (Z.eq_dec p 0) as [E3|E3]]].
  - destruct (Z_le_dec (- 2 ^ (long_bits cfg - 1)) v); [|right; lia].
    destruct (Z_le_dec v (2 ^ (long_bits cfg - 1) - 1)); [left; auto|right; lia].
  - destruct (Z_le_dec (- 2 ^ 63) v); [|right; lia].
    destruct (Z_le_dec v (2 ^ 63 - 1)); [left; auto|right; lia].
  - destruct (gmp cfg) eqn:G; [left; auto|right; intuition (lia || discriminate)].
  - right. lia.
Qed.

Lemma pbits_vals p : pbits p = 32 \/ pbits p = 64.
Proof. unfold pbits. destruct Hcfg as [H|H]; rewrite H; destruct (p =? PRECISION_SP); auto. Qed.

Lemma representable_fixed p v : is_fixed p = true ->
  (representable cfg p v <-> fits (pbits p) v = true).
Proof.
  unfold representable, is_fixed, fits, smin, smax, pbits, PRECISION_SP, PRECISION_DP.
  intros H. destruct (Z.eqb_spec p 32); subst; cbn [orb] in H.
  - change (32 =? 32) with true. cbn iota.
    destruct Hcfg as [H1|H1]; rewrite !H1.
    + change (32 - 1) with 31. destruct pow_vals as (-> & _ & -> & _). lia.
    + change (64 - 1) with 63. destruct pow_vals as (_ & _ & -> & _). lia.
  - assert (p = 64) by lia. subst. change (64 =? 32) with false. cbn iota.
    change (64 - 1) with 63. destruct pow_vals as (_ & _ & -> & _). lia.
Qed.

Lemma representable_mp p v : is_fixed p = false ->
  (representable cfg p v <-> is_mp p = true).
Proof.
  unfold representable, is_fixed, is_mp, PRECISION_SP, PRECISION_DP, PRECISION_MP.
  intros H. split.
  - intros [[? _]|[[? _]|[? Hg]]]; subst; try discriminate. rewrite Hg. reflexivity.
  - intros Hm. right; right. apply andb_true_iff in Hm as [? ?]. split; [lia|assumption].
Qed.

(* Reasoning on the width: everything becomes literals *)
Ltac widths p :=
  let H := fresh "Hw" in
  destruct (pbits_vals p) as [H|H]; rewrite ?H in *;
  repeat match goal with
  | h : context[fits ?b ?v] |- _ => unfold fits in h
  | |- context[fits ?b ?v] => unfold fits
  end;
  change (smin 32) with (-2147483648) in *; change (smax 32) with 2147483647 in *;
  change (smin 64) with (-9223372036854775808) in *;
  change (smax 64) with 9223372036854775807 in *.

(* destruct the innermost condition of the goal, repeatedly *)
Ltac dif :=
  match goal with
  | |- context[if ?c then _ else _] =>
      lazymatch c with context[if _ then _ else _] => fail | _ => destruct c eqn:? end
  end; cbn [bind].
Ltac difs := repeat dif; try reflexivity; try (exfalso; lia).

Lemma min_fixed p v : is_fixed p = true -> (is_min cfg p v <-> v = pmin p).
Proof.
  unfold is_fixed, is_min, pmin, smin, pbits, PRECISION_SP, PRECISION_DP. intros H.
  destruct (Z.eqb_spec p 32); subst; cbn [orb] in *.
  - split; [intros [[? ?]|[? ?]]|]; auto; lia.
  - assert (p = 64) by lia. subst. split; [intros [[? ?]|[? ?]]|]; auto; lia.
Qed.

Lemma csigned_ok b v : fits b v = true -> csigned b v = Ok v.
Proof. unfold csigned. intros ->. reflexivity. Qed.
Lemma csigned_ub b v : fits b v = false -> csigned b v = UB.
Proof. unfold csigned. intros ->. reflexivity. Qed.

Lemma csigned_inv b v x : csigned b v = Ok x -> x = v /\ fits b v = true.
Proof. unfold csigned. destruct (fits b v) eqn:E; intros H; inversion H; auto. Qed.

Lemma fits_prop b v : fits b v = true <-> smin b <= v <= smax b.
Proof. unfold fits. lia. Qed.

Ltac case_csigned :=
  match goal with
  | |- context[csigned ?b ?v] =>
      let E := fresh "Ef" in
      unfold csigned; destruct (fits b v) eqn:E; cbn [bind]
  end.

(** ** Addition *)
Lemma add_exact p a b :
  representable cfg p a -> representable cfg p b -> representable cfg p (a + b) ->
  (ndebug cfg = true \/ ~ (a < 0 /\ is_min cfg p b)) ->
  osl_int_add p a b = Ok (a + b).
Proof.
  intros Ha Hb Hab Hc. destruct (is_fixed p) eqn:F.
  - unfold osl_int_add, pswitch. rewrite F.
    rewrite representable_fixed in Ha, Hb, Hab by assumption.
    rewrite (csigned_ok _ _ Hab).
    destruct (ndebug cfg) eqn:N; [reflexivity|].
    destruct Hc as [Hc|Hc]; [discriminate|]. rewrite min_fixed in Hc by assumption.
    unfold csigned, c_neg, csigned, pmin, pmax in *. widths p; cbn [bind]; difs.
  - unfold osl_int_add, pswitch. rewrite F. rewrite representable_mp in Ha by assumption.
    rewrite Ha. reflexivity.
Qed.

Lemma add_overflow p a b :
  ndebug cfg = false ->
  representable cfg p a -> representable cfg p b -> ~ representable cfg p (a + b) ->
  ~ is_min cfg p b ->
  osl_int_add p a b = Err.
Proof.
  intros N Ha Hb Hab Hm. destruct (is_fixed p) eqn:F.
  - unfold osl_int_add, pswitch. rewrite F, N.
    rewrite representable_fixed in Ha, Hb, Hab by assumption.
    rewrite min_fixed in Hm by assumption.
    unfold csigned, c_neg, pmin, pmax, csigned in *.
    widths p; cbn [bind]; difs.
  - exfalso. apply Hab. apply representable_mp; [assumption|].
    eapply representable_mp; [assumption|exact Ha].
Qed.

(** The one corner left: the guard itself negates the most negative value. *)
Lemma add_min_ub p a b :
  ndebug cfg = false -> representable cfg p a -> a < 0 -> is_min cfg p b ->
  osl_int_add p a b = UB.
Proof.
  intros N Ha Hneg Hm.
  assert (F : is_fixed p = true).
  { destruct Hm as [[-> _]|[-> _]]; reflexivity. }
  rewrite representable_fixed in Ha by assumption.
  rewrite min_fixed in Hm by assumption. subst b.
  unfold osl_int_add, pswitch. rewrite F, N. unfold csigned, c_neg, csigned, pmin, pmax.
  assert ((0 <? a) = false) as -> by lia.
  assert ((a <? 0) = true) as -> by lia. cbn [andb].
  widths p; cbn [bind]; difs.
Qed.

Lemma add_si_exact p a i :
  representable cfg p a -> c_int i -> representable cfg p (a + i) ->
  (ndebug cfg = true \/ ~ (a < 0 /\ i = - 2 ^ 31)) ->
  osl_int_add_si p a i = Ok (a + i).
Proof.
  intros Ha Hi Hab Hc. destruct (is_fixed p) eqn:F.
  - unfold osl_int_add_si, pswitch. rewrite F.
    rewrite representable_fixed in Ha, Hab by assumption.
    rewrite (csigned_ok _ _ Hab).
    destruct (ndebug cfg) eqn:N; [reflexivity|].
    destruct Hc as [Hc|Hc]; [discriminate|].
    unfold c_int in Hi. change (2 ^ 31) with 2147483648 in *.
    unfold csigned, c_neg, csigned, pmin, pmax in *. widths p; cbn [bind]; difs.
  - unfold osl_int_add_si, pswitch. rewrite F. rewrite representable_mp in Ha by assumption.
    rewrite Ha. reflexivity.
Qed.

Lemma add_si_overflow p a i :
  ndebug cfg = false ->
  representable cfg p a -> c_int i -> ~ representable cfg p (a + i) -> i <> - 2 ^ 31 ->
  osl_int_add_si p a i = Err.
Proof.
  intros N Ha Hi Hab Hm. destruct (is_fixed p) eqn:F.
  - unfold osl_int_add_si, pswitch. rewrite F, N.
    rewrite representable_fixed in Ha, Hab by assumption.
    unfold c_int in Hi. change (2 ^ 31) with 2147483648 in *.
    unfold csigned, c_neg, pmin, pmax, csigned in *.
    widths p; cbn [bind]; difs.
  - exfalso. apply Hab. apply representable_mp; [assumption|].
    eapply representable_mp; [assumption|exact Ha].
Qed.

(** ** Negation, absolute value, subtraction *)
Lemma oppose_exact p v : representable cfg p v -> representable cfg p (- v) ->
  osl_int_oppose p v = Ok (- v).
Proof.
  intros Hv Ho. unfold osl_int_oppose, pswitch. destruct (is_fixed p) eqn:F.
  - rewrite representable_fixed in Ho by assumption. apply csigned_ok, Ho.
  - rewrite representable_mp in Ho by assumption. rewrite Ho. reflexivity.
Qed.

Lemma oppose_representable p v : representable cfg p v ->
  (representable cfg p (- v) <-> ~ is_min cfg p v).
Proof.
  intros Hv. destruct (is_fixed p) eqn:F.
  - rewrite representable_fixed in * by assumption.
    rewrite min_fixed by assumption. unfold pmin. widths p; lia.
  - rewrite representable_mp in * by assumption. rewrite Hv. split; [|auto].
    intros _ [[-> _]|[-> _]]; discriminate F.
Qed.

Lemma oppose_ub p v : is_min cfg p v -> osl_int_oppose p v = UB.
Proof.
  intros Hm. assert (F : is_fixed p = true) by (destruct Hm as [[-> _]|[-> _]]; reflexivity).
  rewrite min_fixed in Hm by assumption. subst v.
  unfold osl_int_oppose, pswitch, c_neg. rewrite F. apply csigned_ub. unfold pmin. widths p; reflexivity.
Qed.

Lemma abs_exact p v : representable cfg p v -> representable cfg p (Z.abs v) ->
  osl_int_abs p v = Ok (Z.abs v).
Proof.
  intros Hv Ho. unfold osl_int_abs, pswitch. destruct (is_fixed p) eqn:F.
  - rewrite representable_fixed in Ho by assumption.
    destruct (Z.ltb_spec 0 v).
    + now rewrite Z.abs_eq by lia.
    + rewrite Z.abs_neq in * by lia. apply csigned_ok, Ho.
  - rewrite representable_mp in Ho by assumption. rewrite Ho. reflexivity.
Qed.

Lemma abs_representable p v : representable cfg p v -> ~ is_min cfg p v ->
  representable cfg p (Z.abs v).
Proof.
  intros Hv Hm. destruct (is_fixed p) eqn:F.
  - rewrite representable_fixed in * by assumption.
    rewrite min_fixed in Hm by assumption. unfold pmin in *. widths p; lia.
  - rewrite representable_mp in * by assumption. assumption.
Qed.

Lemma init_ok p : supported cfg p -> osl_int_init p = Ok 0.
Proof.
  intros H. unfold osl_int_init, pswitch.
  destruct (supported_cases _ H) as [[-> _]|[-> [-> _]]]; reflexivity.
Qed.

Lemma sub_exact p a b :
  representable cfg p a -> representable cfg p b -> representable cfg p (a - b) ->
  ~ is_min cfg p b ->
  osl_int_sub p a b = Ok (a - b).
Proof.
  intros Ha Hb Hab Hm. unfold osl_int_sub. destruct (is_mp p); [reflexivity|].
  rewrite init_ok by eauto using representable_supported. cbn [bind].
  assert (Ho : representable cfg p (- b)) by (apply oppose_representable; assumption).
  rewrite oppose_exact by assumption. cbn [bind].
  replace (a - b) with (a + - b) in * by lia.
  apply add_exact; auto. right. intros [_ Hmin].
  destruct (is_fixed p) eqn:F.
  - rewrite min_fixed in Hmin by assumption. rewrite representable_fixed in Hb by assumption.
    unfold pmin in Hmin. widths p; lia.
  - destruct Hmin as [[-> _]|[-> _]]; discriminate F.
Qed.

Lemma sub_overflow p a b :
  ndebug cfg = false ->
  representable cfg p a -> representable cfg p b -> ~ representable cfg p (a - b) ->
  ~ is_min cfg p b ->
  osl_int_sub p a b = Err.
Proof.
  intros N Ha Hb Hab Hm. unfold osl_int_sub.
  destruct (is_fixed p) eqn:F.
  2:{ exfalso. apply Hab. apply representable_mp; [assumption|].
      eapply representable_mp; [assumption|exact Ha]. }
  assert (is_mp p = false) as ->.
  { unfold is_fixed, is_mp, PRECISION_SP, PRECISION_DP, PRECISION_MP in *. lia. }
  rewrite init_ok by eauto using representable_supported. cbn [bind].
  assert (Ho : representable cfg p (- b)) by (apply oppose_representable; assumption).
  rewrite oppose_exact by assumption. cbn [bind].
  replace (a - b) with (a + - b) in Hab by lia.
  apply add_overflow; auto. intros Hmin.
  rewrite min_fixed in Hmin by assumption. rewrite representable_fixed in Hb by assumption.
  unfold pmin in Hmin. widths p; lia.
Qed.

(** ** Multiplication *)
Lemma mul_check_ok bits x a b : b <> 0 -> x = a * b -> fits bits a = true ->
  c_div bits x b = Ok a.
Proof.
  intros Hb -> Hf. unfold c_div. destruct (Z.eqb_spec b 0); [contradiction|].
  rewrite Z.quot_mul by assumption. apply csigned_ok, Hf.
Qed.

Lemma mul_exact p a b :
  representable cfg p a -> representable cfg p b -> representable cfg p (a * b) ->
  osl_int_mul p a b = Ok (a * b).
Proof.
  intros Ha Hb Hab. unfold osl_int_mul, pswitch. destruct (is_fixed p) eqn:F.
  - rewrite representable_fixed in * by assumption.
    rewrite csigned_ok by assumption. cbn [bind].
    destruct (ndebug cfg); [reflexivity|].
    destruct (_ && _) eqn:E; [|reflexivity].
    rewrite (mul_check_ok _ _ a b); auto; [|lia]. cbn [bind].
    rewrite Z.eqb_refl. reflexivity.
  - rewrite representable_mp in Ha by assumption. rewrite Ha. reflexivity.
Qed.

Lemma mul_overflow_ub p a b :
  representable cfg p a -> ~ representable cfg p (a * b) ->
  osl_int_mul p a b = UB.
Proof.
  intros Ha Hab. unfold osl_int_mul, pswitch. destruct (is_fixed p) eqn:F.
  - rewrite representable_fixed in * by assumption.
    rewrite csigned_ub by (destruct (fits _ (a*b)); congruence). reflexivity.
  - exfalso. apply Hab. apply representable_mp; [assumption|].
    eapply representable_mp; [assumption|exact Ha].
Qed.

Lemma mul_si_exact p a i :
  representable cfg p a -> representable cfg p (a * i) ->
  osl_int_mul_si p a i = Ok (a * i).
Proof.
  intros Ha Hab. unfold osl_int_mul_si, pswitch. destruct (is_fixed p) eqn:F.
  - rewrite representable_fixed in * by assumption.
    rewrite csigned_ok by assumption. cbn [bind].
    destruct (ndebug cfg); [reflexivity|].
    destruct (_ && _) eqn:E; [|reflexivity].
    rewrite (mul_check_ok _ _ a i); auto; [|lia]. cbn [bind].
    rewrite Z.eqb_refl. reflexivity.
  - rewrite representable_mp in Ha by assumption. rewrite Ha. reflexivity.
Qed.

(** ** Division *)
Lemma div_exact_ok p a b :
  representable cfg p a -> representable cfg p b -> b <> 0 -> (b | a) ->
  representable cfg p (a / b) ->
  exists q, osl_int_div_exact p a b = Ok q /\ q * b = a.
Proof.
  intros Ha Hb Hnz [k Hk] Hq. subst a. rewrite Z.div_mul in Hq by assumption.
  exists k. split; [|reflexivity]. unfold osl_int_div_exact, pswitch. destruct (is_fixed p) eqn:F.
  - rewrite representable_fixed in * by assumption. unfold c_div.
    destruct (Z.eqb_spec b 0); [contradiction|]. rewrite Z.quot_mul by assumption.
    apply csigned_ok; assumption.
  - rewrite representable_mp in * by assumption. rewrite Ha.
    destruct (Z.eqb_spec b 0); [contradiction|]. rewrite Z.rem_mul by assumption.
    cbn. rewrite Z.quot_mul by assumption. reflexivity.
Qed.

Lemma quot_floor a b : b <> 0 ->
  a / b = Z.quot a b - (if negb (Z.rem a b =? 0) && negb (Bool.eqb (a <? 0) (b <? 0)) then 1 else 0).
Proof.
  intros Hb. symmetry. 
  assert (E := Z.quot_rem a b Hb). assert (Hbound := Z.rem_bound_abs a b Hb).
  assert (Hs := Z.rem_sign_mul a b Hb).
  set (q := Z.quot a b) in *. set (r := Z.rem a b) in *.
  destruct (Z.eqb_spec r 0) as [Hr|Hr]; cbn [negb andb].
  - rewrite Z.sub_0_r. apply Z.div_unique_exact; lia.
  - assert (Hra : (0 < r /\ 0 < a) \/ (r < 0 /\ a < 0)) by nia.
    destruct (Z.ltb_spec a 0), (Z.ltb_spec b 0); cbn [Bool.eqb negb].
    + apply (Z.div_unique _ _ _ r); lia.
    + apply (Z.div_unique _ _ _ (r + b)); lia.
    + apply (Z.div_unique _ _ _ (r + b)); lia.
    + apply (Z.div_unique _ _ _ r); lia.
Qed.

(** The quotient only overflows for MIN / -1. *)
Lemma quot_fits p a b : is_fixed p = true ->
  fits (pbits p) a = true -> b <> 0 -> fits (pbits p) (a / b) = true ->
  fits (pbits p) (Z.quot a b) = true.
Proof.
  intros F Ha Hb. rewrite quot_floor by assumption.
  assert (Habs : Z.abs (Z.quot a b) <= Z.abs a).
  { rewrite <- Z.quot_abs by assumption. 
    destruct (Z.eq_dec (Z.abs b) 1) as [->|]. { rewrite Z.quot_1_r; lia. }
    destruct (Z.eq_dec a 0) as [->|]. { rewrite Z.quot_0_l; lia. }
    apply Z.lt_le_incl, Z.quot_lt; lia. }
  destruct (negb (Z.rem a b =? 0) && negb (Bool.eqb (a <? 0) (b <? 0))) eqn:E; [|rewrite Z.sub_0_r; auto].
  assert (Z.quot a b <= 0).
  { assert (E2 := Z.quot_rem a b Hb). assert (Hbound := Z.rem_bound_abs a b Hb).
    assert (Hs := Z.rem_sign_mul a b Hb).
    destruct (Z.ltb_spec a 0), (Z.ltb_spec b 0); cbn in E; try lia; nia. }
  widths p; lia.
Qed.

Lemma floor_div_q_exact p a b :
  representable cfg p a -> representable cfg p b -> b <> 0 ->
  representable cfg p (a / b) ->
  osl_int_floor_div_q p a b = Ok (a / b).
Proof.
  intros Ha Hb Hnz Hq. unfold osl_int_floor_div_q, pswitch. destruct (is_fixed p) eqn:F.
  - rewrite representable_fixed in * by assumption.
    assert (Hqf := quot_fits p a b F Ha Hnz Hq).
    unfold c_div, c_rem. destruct (Z.eqb_spec b 0); [contradiction|].
    rewrite Hqf. cbn [negb]. rewrite csigned_ok by assumption. cbn [bind].
    assert (E := quot_floor a b Hnz).
    assert (E2 := Z.quot_rem a b Hnz). assert (Hbound := Z.rem_bound_abs a b Hnz).
    assert (Hs := Z.rem_sign_mul a b Hnz).
    set (q := Z.quot a b) in *. set (r := Z.rem a b) in *.
    destruct (Z.ltb_spec q 0).
    + cbn [bind]. 
      assert (Hsgn : Bool.eqb (a <? 0) (b <? 0) = false).
      { destruct (Z.ltb_spec a 0), (Z.ltb_spec b 0); cbn; auto; exfalso; nia. }
      rewrite Hsgn in E. cbn [negb] in E. rewrite andb_true_r in E.
      destruct (negb (r =? 0)) eqn:Er.
      * rewrite <- E. apply csigned_ok; assumption.
      * f_equal; lia.
    + destruct (Z.eqb_spec q 0) as [Hq0|Hq0].
      * assert (r = a) by nia.
        destruct ((0 <? a) && (b <? 0) || (a <? 0) && (0 <? b)) eqn:Es.
        -- replace (q - 1) with (a / b); [apply csigned_ok; assumption|].
           rewrite E. f_equal. destruct (Z.eqb_spec r 0); [lia|]. cbn [negb andb].
           destruct (Z.ltb_spec a 0), (Z.ltb_spec b 0); cbn in *; lia.
        -- f_equal. rewrite E. destruct (Z.eqb_spec r 0); cbn [negb andb]; [lia|].
           destruct (Z.ltb_spec a 0), (Z.ltb_spec b 0); cbn in *; lia.
      * f_equal. rewrite E.
        destruct (Z.eqb_spec r 0); cbn [negb andb]; [lia|].
        assert (Hsgn : Bool.eqb (a <? 0) (b <? 0) = true).
        { destruct (Z.ltb_spec a 0), (Z.ltb_spec b 0); cbn; auto; exfalso; nia. }
        rewrite Hsgn. cbn. lia.
  - rewrite representable_mp in * by assumption. rewrite Ha.
    destruct (Z.eqb_spec b 0); [contradiction|reflexivity].
Qed.

Lemma representable_zero p : supported cfg p -> representable cfg p 0.
Proof.
  intros H. destruct (is_fixed p) eqn:F.
  - apply representable_fixed; [assumption|]. widths p; reflexivity.
  - apply representable_mp; [assumption|]. destruct (supported_cases _ H) as [[? _]|[_ [? _]]]; congruence.
Qed.

Lemma floor_div_rem_fits p a b : representable cfg p b -> b <> 0 -> representable cfg p (a - b * (a / b)).
Proof.
  intros Hb Hnz. destruct (is_fixed p) eqn:F.
  - rewrite representable_fixed in * by assumption.
    assert (Hr : a - b * (a / b) = a mod b) by (rewrite Z.mod_eq by assumption; reflexivity).
    rewrite Hr.
    destruct (Z_lt_le_dec b 0).
    + pose proof (Z.mod_neg_bound a b ltac:(lia)). widths p; lia.
    + pose proof (Z.mod_pos_bound a b ltac:(lia)). widths p; lia.
  - rewrite representable_mp in * by assumption. assumption.
Qed.

Lemma floor_div_q_r_exact p a b :
  representable cfg p a -> representable cfg p b -> b <> 0 ->
  representable cfg p (a / b) -> representable cfg p (b * (a / b)) ->
  osl_int_floor_div_q_r p a b = Ok (a / b, a mod b).
Proof.
  intros Ha Hb Hnz Hq Hx. 
  pose proof (floor_div_rem_fits p a b Hb Hnz) as Hr.
  rewrite (Z.mod_eq a b) by assumption.
  pose proof (floor_div_q_exact p a b Ha Hb Hnz Hq) as Eq.
  unfold osl_int_floor_div_q_r, pswitch. destruct (is_fixed p) eqn:F.
  - rewrite Eq. cbn [bind]. rewrite representable_fixed in * by assumption.
    rewrite (Z.mul_comm (a/b) b).
    rewrite csigned_ok by assumption. cbn [bind].
    rewrite csigned_ok by assumption. reflexivity.
  - rewrite representable_mp in * by assumption. rewrite Ha.
    destruct (Z.eqb_spec b 0); [contradiction|reflexivity].
Qed.

Lemma floor_div_r_exact p a b :
  representable cfg p a -> representable cfg p b -> b <> 0 ->
  representable cfg p (a / b) -> representable cfg p (b * (a / b)) ->
  osl_int_floor_div_r p a b = Ok (a mod b).
Proof.
  intros Ha Hb Hnz Hq Hx. 
  pose proof (floor_div_rem_fits p a b Hb Hnz) as Hr.
  rewrite (Z.mod_eq a b) by assumption.
  pose proof (floor_div_q_exact p a b Ha Hb Hnz Hq) as Eq.
  unfold osl_int_floor_div_r, pswitch. destruct (is_fixed p) eqn:F.
  - rewrite Eq. cbn [bind]. rewrite representable_fixed in * by assumption.
    rewrite (Z.mul_comm (a/b) b).
    rewrite csigned_ok by assumption. cbn [bind].
    rewrite csigned_ok by assumption. reflexivity.
  - rewrite representable_mp in * by assumption. rewrite Ha.
    destruct (Z.eqb_spec b 0); [contradiction|reflexivity].
Qed.

(** Near the bottom of the range the product in floor_div_r overflows. *)
Lemma floor_div_r_ub p a b :
  representable cfg p a -> representable cfg p b -> b <> 0 ->
  representable cfg p (a / b) -> ~ representable cfg p (b * (a / b)) ->
  osl_int_floor_div_r p a b = UB.
Proof.
  intros Ha Hb Hnz Hq Hx.
  pose proof (floor_div_q_exact p a b Ha Hb Hnz Hq) as Eq.
  unfold osl_int_floor_div_r, pswitch. destruct (is_fixed p) eqn:F.
  - rewrite Eq. cbn [bind]. rewrite representable_fixed in * by assumption.
    rewrite csigned_ub; [reflexivity|]. rewrite Z.mul_comm. apply not_true_is_false; assumption.
  - exfalso. apply Hx. rewrite representable_mp in * by assumption. assumption.
Qed.

Lemma quot_fits' bits a b : fits bits a = true -> b <> 0 -> ~ (a = smin bits /\ b = -1) ->
  smin bits = - smax bits - 1 -> fits bits (Z.quot a b) = true.
Proof.
  intros Ha Hb Hm Hs. rewrite fits_prop in *.
  destruct (Z.eq_dec b (-1)) as [->|].
  { change (-1) with (- (1)). rewrite Z.quot_opp_r by lia. rewrite Z.quot_1_r. lia. }
  destruct (Z.eq_dec b 1) as [->|].
  { rewrite Z.quot_1_r. lia. }
  destruct (Z.eq_dec a 0) as [->|]. { rewrite Z.quot_0_l by lia. lia. }
  assert (Z.abs (Z.quot a b) < Z.abs a).
  { rewrite <- Z.quot_abs by assumption. apply Z.quot_lt; lia. }
  lia.
Qed.

Lemma mod_exact p a b :
  representable cfg p a -> representable cfg p b -> b <> 0 ->
  ~ (is_min cfg p a /\ b = -1) -> ~ is_min cfg p b ->
  exists m, osl_int_mod p a b = Ok m /\ 0 <= m < Z.abs b /\ (b | a - m).
Proof.
  intros Ha Hb Hnz Hm1 Hm2. exists (a mod Z.abs b).
  assert (Hbd : 0 <= a mod Z.abs b < Z.abs b) by (apply Z.mod_pos_bound; lia).
  assert (Hdiv : (b | a - a mod Z.abs b)).
  { apply Z.divide_abs_l. exists (a / Z.abs b). rewrite Z.mod_eq by lia. lia. }
  split; [|split; assumption].
  unfold osl_int_mod, pswitch. destruct (is_fixed p) eqn:F.
  - rewrite representable_fixed in * by assumption.
    rewrite min_fixed in Hm1 by assumption. rewrite min_fixed in Hm2 by assumption. unfold pmin in *.
    assert (Hqf : fits (pbits p) (Z.quot a b) = true).
    { apply quot_fits'; auto. destruct (pbits_vals p) as [->| ->]; reflexivity. }
    unfold c_rem. destruct (Z.eqb_spec b 0); [contradiction|]. rewrite Hqf. cbn [negb bind].
    assert (E2 := Z.quot_rem a b Hnz). assert (Hbound := Z.rem_bound_abs a b Hnz).
    set (q := Z.quot a b) in *. set (r := Z.rem a b) in *.
    assert (Hq : a = Z.abs b * (Z.sgn b * q) + r).
    { rewrite Z.mul_assoc, Z.abs_sgn. exact E2. }
    destruct (Z.ltb_spec r 0).
    + unfold c_abs. rewrite csigned_ok by (widths p; lia). cbn [bind].
      assert (a mod Z.abs b = r + Z.abs b).
      { symmetry. apply (Z.mod_unique _ _ (Z.sgn b * q - 1)); lia. }
      rewrite csigned_ok by (widths p; lia). f_equal. lia.
    + f_equal. apply (Z.mod_unique _ _ (Z.sgn b * q)); lia.
  - rewrite representable_mp in * by assumption. rewrite Ha.
    destruct (Z.eqb_spec b 0); [contradiction|reflexivity].
Qed.

(** ** gcd *)
(* Euclid's algorithm with truncated remainder: enough fuel. *)
Definition in64 (v : Z) : Prop := - 9223372036854775807 <= v <= 9223372036854775807.

Lemma llgcd_step a b : in64 a -> in64 b -> b <> 0 ->
  c_rem 64 a b = Ok (Z.rem a b) /\ in64 (Z.rem a b) /\
  Z.abs (Z.rem a b) < Z.abs b /\ Z.abs (Z.rem a b) <= Z.abs a /\
  (Z.abs b < Z.abs a -> 2 * Z.abs (Z.rem a b) < Z.abs a) /\
  Z.gcd b (Z.rem a b) = Z.gcd a b.
Proof.
  unfold in64. intros Ha Hb Hnz.
  assert (Hqf : fits 64 (Z.quot a b) = true).
  { apply quot_fits'; auto; try rewrite fits_prop;
    change (smin 64) with (-9223372036854775808) in *;
    change (smax 64) with 9223372036854775807 in *; lia. }
  assert (Hbound := Z.rem_bound_abs a b Hnz).
  assert (Hra : Z.abs (Z.rem a b) <= Z.abs a).
  { rewrite <- Z.rem_abs by assumption.
    rewrite Z.rem_mod_nonneg by lia. apply Z.mod_le; lia. }
  split; [|split; [lia|split; [exact Hbound|split; [exact Hra|split]]]].
  - unfold c_rem. destruct (Z.eqb_spec b 0); [contradiction|]. rewrite Hqf. reflexivity.
  - intros Hlt. rewrite <- Z.rem_abs by assumption. 
    assert (E := Z.quot_rem (Z.abs a) (Z.abs b) ltac:(lia)).
    assert (Hb2 := Z.rem_bound_pos (Z.abs a) (Z.abs b) ltac:(lia) ltac:(lia)).
    assert (0 < Z.quot (Z.abs a) (Z.abs b)) by (apply Z.quot_str_pos; lia).
    nia.
  - assert (E2 := Z.quot_rem a b Hnz).
    replace (Z.rem a b) with (a + (- Z.quot a b) * b) by lia.
    rewrite Z.gcd_add_mult_diag_r. apply Z.gcd_comm.
Qed.

Lemma llgcd_ok_lt fuel : forall a b, in64 a -> in64 b -> Z.abs b < Z.abs a ->
  Z.abs (a * b) < 2 ^ Z.of_nat fuel ->
  exists g, llgcd (S fuel) a b = Ok g /\ Z.abs g = Z.gcd a b.
Proof.
  induction fuel as [|f IH]; intros a b Ha Hb Hlt Hf.
  - assert (b = 0) by (change (2 ^ Z.of_nat 0) with 1 in Hf; nia). subst b.
    exists a. cbn. rewrite Z.gcd_0_r. auto.
  - cbn [llgcd]. destruct (Z.eqb_spec b 0) as [->|Hnz].
    { exists a. rewrite Z.gcd_0_r. auto. }
    destruct (llgcd_step a b Ha Hb Hnz) as (E & Hr & Hrb & _ & Hhalf & Hg).
    rewrite E. cbn [bind]. rewrite <- Hg. apply (IH b (Z.rem a b)); auto.
    specialize (Hhalf Hlt). rewrite Nat2Z.inj_succ, Z.pow_succ_r in Hf by lia.
    rewrite Z.abs_mul in *. nia.
Qed.

Lemma llgcd_ok a b : in64 a -> in64 b ->
  exists g, llgcd (llgcd_fuel a b) a b = Ok g /\ Z.abs g = Z.gcd a b.
Proof.
  intros Ha Hb. unfold llgcd_fuel. set (L := Z.log2 (Z.abs (a * b))).
  assert (HL : 0 <= L) by apply Z.log2_nonneg.
  replace (Z.to_nat L + 3)%nat with (S (S (S (Z.to_nat L)))) by lia.
  set (k := S (Z.to_nat L)).
  change (llgcd (S (S k)) a b) with
    (if b =? 0 then Ok a else r <- c_rem 64 a b ;; llgcd (S k) b r).
  destruct (Z.eqb_spec b 0) as [->|Hnz].
  { exists a. rewrite Z.gcd_0_r. auto. }
  destruct (llgcd_step a b Ha Hb Hnz) as (E & Hr & Hrb & Hra & _ & Hg).
  rewrite E. cbn [bind]. rewrite <- Hg. apply llgcd_ok_lt; auto.
  assert (Hab : Z.abs (a * b) < 2 ^ Z.of_nat k).
  { unfold k. rewrite Nat2Z.inj_succ, Z2Nat.id by lia.
    destruct (Z.eq_dec (Z.abs (a * b)) 0) as [->|Hz]; [apply Z.pow_pos_nonneg; lia|].
    apply Z.log2_spec. lia. }
  rewrite Z.abs_mul in *. nia.
Qed.

Lemma is_gcd_gcd a b : is_gcd a b (Z.gcd a b).
Proof.
  split; [apply Z.gcd_nonneg|]. split; [apply Z.gcd_divide_l|].
  split; [apply Z.gcd_divide_r|]. intros d. apply Z.gcd_greatest.
Qed.

Lemma notmin_in64 p v : is_fixed p = true -> representable cfg p v -> ~ is_min cfg p v -> in64 v.
Proof.
  intros F Hv Hm. rewrite representable_fixed in Hv by assumption.
  rewrite min_fixed in Hm by assumption. unfold in64, pmin in *. widths p; lia.
Qed.

Lemma gcd_exact p a b :
  representable cfg p a -> representable cfg p b ->
  ~ is_min cfg p a -> ~ is_min cfg p b ->
  osl_int_gcd p a b = Ok (Z.gcd a b).
Proof.
  intros Ha Hb Hma Hmb. unfold osl_int_gcd, pswitch. destruct (is_fixed p) eqn:F.
  - destruct (llgcd_ok a b) as [g [Hg Hgg]]; [eapply notmin_in64; eauto..|].
    rewrite Hg. cbn [bind]. unfold c_abs. rewrite Hgg. apply csigned_ok.
    rewrite representable_fixed in Ha, Hb by assumption.
    rewrite min_fixed in Hma by assumption. rewrite min_fixed in Hmb by assumption.
    assert (0 <= Z.gcd a b) by apply Z.gcd_nonneg.
    assert (Z.gcd a b <= Z.max (Z.abs a) (Z.abs b)).
    { destruct (Z.eq_dec b 0) as [->|Hnz]; [rewrite Z.gcd_0_r; lia|].
      assert (Z.gcd a b <= Z.abs b); [|lia].
      apply Z.divide_pos_le; [lia|]. apply Z.divide_abs_r, Z.gcd_divide_r. }
    unfold pmin in *. widths p; lia.
  - rewrite representable_mp in Ha by assumption. rewrite Ha. reflexivity.
Qed.

Lemma zero_ok p v : supported cfg p -> osl_int_zero p v = Ok (v =? 0).
Proof.
  intros H. unfold osl_int_zero, pswitch.
  destruct (supported_cases _ H) as [[-> _]|[-> [-> _]]]; reflexivity.
Qed.

Lemma lcm_exact p a b :
  representable cfg p a -> representable cfg p b ->
  ~ is_min cfg p a -> ~ is_min cfg p b -> representable cfg p (Z.lcm a b) ->
  osl_int_lcm p a b = Ok (Z.lcm a b).
Proof.
  intros Ha Hb Hma Hmb Hl.
  assert (Hsup : supported cfg p) by eauto using representable_supported.
  unfold osl_int_lcm. rewrite init_ok by assumption. cbn [bind].
  assert (Haa : representable cfg p (Z.abs a)) by (apply abs_representable; auto).
  assert (Hbb : representable cfg p (Z.abs b)) by (apply abs_representable; auto).
  rewrite (abs_exact p a) by assumption. cbn [bind].
  rewrite (abs_exact p b) by assumption. cbn [bind].
  assert (Hnm : forall v, ~ is_min cfg p (Z.abs v)).
  { intros v Hm. destruct (is_fixed p) eqn:F.
    - rewrite min_fixed in Hm by assumption. unfold pmin in Hm. widths p; lia.
    - destruct Hm as [[-> _]|[-> _]]; discriminate F. }
  rewrite gcd_exact by auto. cbn [bind].
  rewrite Z.gcd_abs_l, Z.gcd_abs_r.
  rewrite zero_ok by assumption. cbn [bind].
  destruct (Z.eqb_spec (Z.gcd a b) 0) as [Hz|Hz].
  - apply Z.gcd_eq_0 in Hz as [-> ->]. unfold osl_int_set_si, pswitch.
    destruct (supported_cases _ Hsup) as [[-> _]|[-> [-> _]]]; reflexivity.
  - assert (Hg0 := Z.gcd_nonneg a b).
    assert (Hda : (Z.gcd a b | Z.abs a)) by (apply Z.divide_abs_r, Z.gcd_divide_l).
    destruct Hda as [k Hk].
    assert (Hk0 : 0 <= k) by nia.
    assert (Hkq : Z.abs a / Z.gcd a b = k) by (rewrite Hk; apply Z.div_mul; assumption).
    assert (Hkr : representable cfg p k).
    { destruct (is_fixed p) eqn:F.
      - rewrite representable_fixed in * by assumption. widths p; nia.
      - rewrite representable_mp in * by assumption. assumption. }
    assert (Hgr : representable cfg p (Z.gcd a b)).
    { destruct (is_fixed p) eqn:F.
      - rewrite representable_fixed in * by assumption.
        assert (Z.gcd a b <= Z.max (Z.abs a) (Z.abs b)).
        { destruct (Z.eq_dec b 0) as [->|Hnz]; [rewrite Z.gcd_0_r; lia|].
          assert (Z.gcd a b <= Z.abs b); [|lia].
          apply Z.divide_pos_le; [lia|]. apply Z.divide_abs_r, Z.gcd_divide_r. }
        widths p; lia.
      - rewrite representable_mp in * by assumption. assumption. }
    destruct (div_exact_ok p (Z.abs a) (Z.gcd a b)) as [q [Hq Hqk]]; auto.
    { exists k; assumption. }
    { rewrite Hkq. assumption. }
    rewrite Hq. cbn [bind]. assert (q = k) by nia. subst q.
    assert (Hlcm : k * Z.abs b = Z.lcm a b).
    { unfold Z.lcm. rewrite Z.abs_mul.
      destruct (Z.gcd_divide_r a b) as [k2 Hk2].
      assert (b / Z.gcd a b = k2) by (rewrite Hk2 at 1; apply Z.div_mul; assumption).
      rewrite H. rewrite Hk. rewrite Hk2 at 1. rewrite Z.abs_mul, (Z.abs_eq (Z.gcd a b)) by lia. ring. }
    rewrite <- Hlcm in *. apply mul_exact; auto.
Qed.

Lemma is_lcm_lcm a b : is_lcm a b (Z.lcm a b).
Proof.
  split; [apply Z.lcm_nonneg|]. split; [apply Z.divide_lcm_l|].
  split; [apply Z.divide_lcm_r|]. intros d. apply Z.lcm_least.
Qed.

(** ** Comparisons *)
Lemma wrap_fits bits v : 0 < bits -> fits bits v = true -> wrap bits v = v.
Proof.
  intros Hb. rewrite fits_prop. unfold wrap, smin, smax. intros H.
  assert (2 ^ bits = 2 * 2 ^ (bits - 1)).
  { replace bits with (Z.succ (bits - 1)) at 1 by lia. rewrite Z.pow_succ_r by lia. reflexivity. }
  rewrite Z.mod_small by lia. lia.
Qed.

Lemma as_sp_id p v : is_fixed p = true -> representable cfg p v ->
  (p = 32 \/ long_bits cfg = 64) -> as_sp v = v.
Proof.
  intros F Hv Hw. rewrite representable_fixed in Hv by assumption. unfold as_sp.
  apply wrap_fits.
  - destruct Hcfg as [-> | ->]; lia.
  - revert Hv. unfold pbits, PRECISION_SP. destruct (Z.eqb_spec p 32) as [->|]; auto.
    destruct Hw as [?|Hw]; [contradiction|]. now rewrite Hw.
Qed.

Lemma cmp_exact p a b :
  representable cfg p a -> representable cfg p b -> (p <> 64 \/ long_bits cfg = 64) ->
  osl_int_lt p a b = Ok (a <? b) /\ osl_int_le p a b = Ok (a <=? b) /\
  osl_int_gt p a b = Ok (b <? a) /\ osl_int_ge p a b = Ok (b <=? a).
Proof.
  intros Ha Hb Hw. unfold osl_int_lt, osl_int_le, osl_int_gt, osl_int_ge, pswitch.
  destruct (is_fixed p) eqn:F.
  - assert (Hc : p = 32 \/ long_bits cfg = 64).
    { destruct Hw; auto. left. unfold is_fixed, PRECISION_SP, PRECISION_DP in F. lia. }
    rewrite !(as_sp_id p) by assumption. auto.
  - rewrite representable_mp in Ha by assumption. rewrite Ha. auto.
Qed.

Lemma eq_exact p a b : supported cfg p -> osl_int_eq p a b = Ok (a =? b).
Proof.
  intros H. unfold osl_int_eq, pswitch.
  destruct (supported_cases _ H) as [[-> _]|[-> [-> _]]]; reflexivity.
Qed.

Lemma sign_exact p v : supported cfg p ->
  osl_int_pos p v = Ok (0 <? v) /\ osl_int_neg p v = Ok (v <? 0) /\
  osl_int_zero p v = Ok (v =? 0) /\ osl_int_one p v = Ok (v =? 1) /\
  osl_int_mone p v = Ok (v =? -1).
Proof.
  intros H. unfold osl_int_pos, osl_int_neg, osl_int_zero, osl_int_one, osl_int_mone, pswitch.
  destruct (supported_cases _ H) as [[-> _]|[-> [-> _]]]; auto.
Qed.

Lemma divisible_exact p a b : representable cfg p a -> representable cfg p b -> b <> 0 ->
  ~ (is_min cfg p a /\ b = -1) ->
  exists r, osl_int_divisible p a b = Ok r /\ (r = true <-> (b | a)).
Proof.
  intros Ha Hb Hnz Hm. exists (Z.rem a b =? 0). split.
  - unfold osl_int_divisible, pswitch. destruct (is_fixed p) eqn:F.
    + rewrite representable_fixed in * by assumption.
      rewrite min_fixed in Hm by assumption. unfold pmin in Hm.
      unfold c_rem. destruct (Z.eqb_spec b 0); [contradiction|].
      rewrite quot_fits'; auto. destruct (pbits_vals p) as [->| ->]; reflexivity.
    + rewrite representable_mp in Ha by assumption. rewrite Ha.
      destruct (Z.eqb_spec b 0); [contradiction|reflexivity].
  - rewrite Z.eqb_eq. apply Z.rem_divide. assumption.
Qed.

(** ** Sizes *)
Lemma lllog2_loop_ok fuel : forall x n, 0 <= x -> x < 2 ^ Z.of_nat fuel ->
  lllog2_loop (S fuel) x n = Ok (n + (if x =? 0 then 0 else Z.log2 x + 1)).
Proof.
  induction fuel as [|f IH]; intros x n Hx Hf.
  - assert (x = 0) by (change (2 ^ Z.of_nat 0) with 1 in Hf; lia). subst. cbn. f_equal; lia.
  - change (lllog2_loop (S (S f)) x n) with
      (if x =? 0 then Ok n else lllog2_loop (S f) (Z.shiftr x 1) (n + 1)).
    destruct (Z.eqb_spec x 0) as [->|Hnz]; [f_equal; lia|].
    rewrite Z.shiftr_div_pow2 by lia. change (2 ^ 1) with 2.
    rewrite Nat2Z.inj_succ, Z.pow_succ_r in Hf by lia.
    rewrite IH; [|lia|lia]. f_equal.
    destruct (Z.eqb_spec (x / 2) 0) as [H0|H0].
    + assert (x = 1) by lia. subst. change (Z.log2 1) with 0; lia.
    + 
      assert (Z.log2 x = Z.log2 (x / 2) + 1).
      { pose proof (Z.log2_shiftr x 1 ltac:(lia)) as E.
        rewrite Z.shiftr_div_pow2 in E by lia. change (2 ^ 1) with 2 in E.
        assert (1 <= Z.log2 x) by (change 1 with (Z.log2 2); apply Z.log2_le_mono; lia). lia. }
      lia.
Qed.

Lemma size2_exact p v : representable cfg p v -> ~ is_min cfg p v ->
  osl_int_size_in_base_2 p v = Ok (if v =? 0 then 1 else Z.log2 (Z.abs v) + 1).
Proof.
  intros Hv Hm. unfold osl_int_size_in_base_2, pswitch. destruct (is_fixed p) eqn:F.
  - pose proof (notmin_in64 p v F Hv Hm) as H64. unfold in64 in H64.
    unfold lllog2, c_abs. rewrite csigned_ok by (unfold fits; change (smin 64) with (-9223372036854775808);
      change (smax 64) with 9223372036854775807; lia). cbn [bind].
    rewrite lllog2_loop_ok; [|lia|].
    + cbn [bind]. f_equal. destruct (Z.eqb_spec v 0) as [->|]; [reflexivity|].
      destruct (Z.eqb_spec (Z.abs v) 0); [lia|].
      pose proof (Z.log2_nonneg (Z.abs v)). 
      destruct (Z.eqb_spec (0 + (Z.log2 (Z.abs v) + 1)) 0); lia.
    + rewrite Nat2Z.inj_succ, Z2Nat.id by apply Z.log2_nonneg.
      destruct (Z.eq_dec (Z.abs v) 0) as [->|]; [reflexivity|]. apply Z.log2_spec; lia.
  - rewrite representable_mp in Hv by assumption. rewrite Hv. reflexivity.
Qed.

(** ** Precision change *)
Lemma set_precision_same p v : osl_int_set_precision p p v = Ok v.
Proof. unfold osl_int_set_precision. rewrite Z.eqb_refl. reflexivity. Qed.

Lemma set_precision_int p q v : supported cfg p -> supported cfg q -> c_int v ->
  osl_int_set_precision p q v = Ok v.
Proof.
  intros Hp Hq Hv. unfold osl_int_set_precision. destruct (p =? q); [reflexivity|].
  unfold osl_int_get_si, osl_int_clear, osl_int_init_set_si, pswitch.
  assert (Hg : (if ndebug cfg then Ok (wrap 32 v)
     else if INT_MAX <? v then Err else if v <? INT_MIN then Err else Ok v) = Ok v).
  { unfold c_int in Hv. change (2 ^ 31) with 2147483648 in Hv.
    destruct (ndebug cfg).
    - rewrite wrap_fits; [reflexivity|lia|]. rewrite fits_prop.
      change (smin 32) with (-2147483648); change (smax 32) with 2147483647. lia.
    - unfold INT_MAX, INT_MIN. change (smin 32) with (-2147483648); change (smax 32) with 2147483647.
      destruct (Z.ltb_spec 2147483647 v); [lia|]. destruct (Z.ltb_spec v (-2147483648)); [lia|reflexivity]. }
  destruct (supported_cases _ Hp) as [[-> _]|[-> [-> _]]]; rewrite Hg; cbn [bind];
  destruct (supported_cases _ Hq) as [[-> _]|[-> [-> _]]]; reflexivity.
Qed.

Lemma set_precision_err p q v : p <> q -> supported cfg p -> ndebug cfg = false -> ~ c_int v ->
  osl_int_set_precision p q v = Err.
Proof.
  intros Hpq Hp N Hv. unfold osl_int_set_precision. destruct (Z.eqb_spec p q); [contradiction|].
  unfold osl_int_get_si, pswitch. rewrite N.
  assert (Hg : (if INT_MAX <? v then @Err Z else if v <? INT_MIN then Err else Ok v) = Err).
  { unfold c_int in Hv. change (2 ^ 31) with 2147483648 in Hv.
    unfold INT_MAX, INT_MIN. change (smin 32) with (-2147483648); change (smax 32) with 2147483647.
    destruct (Z.ltb_spec 2147483647 v); [reflexivity|]. destruct (Z.ltb_spec v (-2147483648)); [reflexivity|lia]. }
  destruct (supported_cases _ Hp) as [[-> _]|[-> [-> _]]]; rewrite Hg; reflexivity.
Qed.

End INTPROOFS.
