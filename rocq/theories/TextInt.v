(** * Printing and scanning of integers: lemmas *)
From Coq Require Import ZifyBool ZifyNat.
From Verif Require Import Base IntModel Spec IntProofs.
Ltac Zify.zify_post_hook ::= Z.div_mod_to_equations.

Definition dval (ds : str) (a : Z) : Z :=
  fold_left (fun acc c => 10 * acc + digit_val c) ds a.

Definition digits (ds : str) : Prop := Forall (fun c => is_digit c = true) ds.

(** The text that follows a number does not extend it. *)
Definition no_digit_head (s : str) : Prop :=
  match s with [] => True | c :: _ => is_digit c = false end.

Lemma digit_chr_ok d : 0 <= d <= 9 -> is_digit (digit_chr d) = true /\ digit_val (digit_chr d) = d.
Proof.
  intros H.
  assert (d = 0 \/ d = 1 \/ d = 2 \/ d = 3 \/ d = 4 \/ d = 5 \/ d = 6 \/ d = 7 \/ d = 8 \/ d = 9) by lia.
  repeat match goal with h : _ \/ _ |- _ => destruct h as [->|h] end; subst; split; reflexivity.
Qed.

Lemma digit_not_space c : is_digit c = true -> is_space c = false.
Proof. unfold is_digit, is_space. lia. Qed.

Lemma digit_not_sign c : is_digit c = true -> ceqb c c_minus = false /\ ceqb c c_plus = false.
Proof.
  intros H. split; apply Ascii.eqb_neq; intros ->; discriminate H.
Qed.

Lemma scan_digits_app ds : forall rest a, digits ds -> no_digit_head rest ->
  scan_digits (ds ++ rest) a = (dval ds a, rest).
Proof.
  induction ds as [|c ds IH]; intros rest a Hd Hr.
  - cbn. destruct rest as [|c rest]; [reflexivity|]. cbn in *. now rewrite Hr.
  - inversion Hd; subst. cbn [app scan_digits]. rewrite H1. apply IH; assumption.
Qed.

Lemma digits_loop_acc fuel : forall n acc, digits_loop fuel n acc = digits_loop fuel n [] ++ acc.
Proof.
  induction fuel as [|f IH]; intros n acc; [reflexivity|]. cbn [digits_loop].
  destruct (n <? 10); [reflexivity|]. rewrite IH. rewrite (IH _ [_]).
  rewrite <- app_assoc. reflexivity.
Qed.

Lemma dval_app a b x : dval (a ++ b) x = dval b (dval a x).
Proof. unfold dval. apply fold_left_app. Qed.

Lemma digits_loop_ok fuel : forall n, 0 <= n < 2 ^ Z.of_nat fuel ->
  digits (digits_loop fuel n []) /\ dval (digits_loop fuel n []) 0 = n.
Proof.
  induction fuel as [|f IH]; intros n Hn.
  - change (2 ^ Z.of_nat 0) with 1 in Hn. assert (n = 0) by lia. subst. split; [constructor|reflexivity].
  - cbn [digits_loop]. destruct (Z.ltb_spec n 10).
    + destruct (digit_chr_ok n) as [H1 H2]; [lia|]. split; [repeat constructor; assumption|].
      cbn [dval fold_left]. rewrite H2. lia.
    + rewrite digits_loop_acc. rewrite Nat2Z.inj_succ, Z.pow_succ_r in Hn by lia.
      destruct (IH (n / 10)) as [Hd Hv]; [lia|].
      destruct (digit_chr_ok (n mod 10)) as [H1 H2]; [lia|].
      split.
      * apply Forall_app. split; [assumption|]. repeat constructor; assumption.
      * rewrite dval_app, Hv. cbn [dval fold_left]. rewrite H2. lia.
Qed.

Lemma digits_loop_nonempty fuel n acc : digits_loop (S fuel) n acc <> [].
Proof.
  cbn [digits_loop]. destruct (n <? 10); [discriminate|]. rewrite digits_loop_acc.
  intros H. apply app_eq_nil in H as [_ H]. discriminate.
Qed.

Lemma print_nat_fuel n : 0 <= n -> 0 <= n < 2 ^ Z.of_nat (S (Z.to_nat (Z.log2 n))).
Proof.
  intros Hn. split; [assumption|].
  rewrite Nat2Z.inj_succ, Z2Nat.id by apply Z.log2_nonneg.
  destruct (Z.eq_dec n 0) as [->|]; [reflexivity|]. apply Z.log2_spec; lia.
Qed.

Lemma print_nat_ok n : 0 <= n ->
  digits (print_nat_Z n) /\ dval (print_nat_Z n) 0 = n /\ print_nat_Z n <> [].
Proof.
  intros Hn. unfold print_nat_Z.
  destruct (digits_loop_ok _ n (print_nat_fuel n Hn)) as [H1 H2].
  split; [assumption|]. split; [assumption|]. apply digits_loop_nonempty.
Qed.

Lemma digits_loop_length fuel : forall n k, (1 <= k)%nat -> 0 <= n < 10 ^ Z.of_nat k ->
  (List.length (digits_loop fuel n []) <= k)%nat.
Proof.
  induction fuel as [|f IH]; intros n k Hk Hn; [cbn; lia|].
  cbn [digits_loop]. destruct (Z.ltb_spec n 10); [cbn; lia|].
  rewrite digits_loop_acc, app_length. cbn [List.length].
  destruct k as [|[|k]]; [lia|change (10 ^ Z.of_nat 1) with 10 in Hn; lia|].
  assert (0 <= n / 10 < 10 ^ Z.of_nat (S k)).
  { rewrite (Nat2Z.inj_succ (S k)), Z.pow_succ_r in Hn by lia. lia. }
  specialize (IH (n / 10) (S k) ltac:(lia) H0). lia.
Qed.

Lemma print_Z_length v k : (1 <= k)%nat -> - 10 ^ Z.of_nat k < v < 10 ^ Z.of_nat k ->
  (List.length (print_Z v) <= S k)%nat.
Proof.
  intros Hk Hv. unfold print_Z, print_nat_Z. destruct (Z.ltb_spec v 0).
  - cbn [List.length]. apply le_n_S. apply digits_loop_length; lia.
  - apply Nat.le_le_succ_r. apply digits_loop_length; lia.
Qed.

Lemma skip_spaces_nonspace c s : is_space c = false -> skip_spaces (c :: s) = c :: s.
Proof. intros H. cbn. now rewrite H. Qed.

Lemma skip_spaces_app sp s : Forall (fun c => is_space c = true) sp ->
  skip_spaces (sp ++ s) = skip_spaces s.
Proof.
  induction sp as [|c sp IH]; intros H; [reflexivity|].
  inversion H; subst. cbn. rewrite H2. auto.
Qed.

Lemma scan_print_nospace v rest : no_digit_head rest ->
  scan_Z (print_Z v ++ rest) = Some (Some (v, rest)).
Proof.
  intros Hr. unfold print_Z, scan_Z. destruct (Z.ltb_spec v 0).
  - destruct (print_nat_ok (- v)) as (Hd & Hv & Hn); [lia|].
    rewrite <- app_comm_cons, skip_spaces_nonspace by reflexivity.
    change (ceqb c_minus c_minus) with true. cbn iota.
    destruct (print_nat_Z (- v)) as [|d ds] eqn:E; [contradiction|].
    rewrite <- app_comm_cons. pose proof (Forall_inv Hd) as H2. cbn beta in H2. rewrite H2.
    rewrite app_comm_cons, scan_digits_app by assumption. rewrite Hv.
    do 3 f_equal. lia.
  - destruct (print_nat_ok v) as (Hd & Hv & Hn); [lia|].
    destruct (print_nat_Z v) as [|d ds] eqn:E; [contradiction|].
    rewrite <- app_comm_cons. pose proof (Forall_inv Hd) as H2. cbn beta in H2.
    rewrite skip_spaces_nonspace by (apply digit_not_space; assumption).
    destruct (digit_not_sign d H2) as [-> ->]. rewrite H2.
    rewrite app_comm_cons, scan_digits_app by assumption. rewrite Hv. reflexivity.
Qed.

Lemma scan_Z_skip sp s : Forall (fun c => is_space c = true) sp -> scan_Z (sp ++ s) = scan_Z s.
Proof. intros H. unfold scan_Z. now rewrite skip_spaces_app. Qed.

Lemma repeat_spaces n : Forall (fun c => is_space c = true) (repeat c_sp n).
Proof. induction n; cbn; constructor; auto. Qed.

Lemma scan_print v rest : no_digit_head rest ->
  scan_Z (pad4 (print_Z v) ++ rest) = Some (Some (v, rest)).
Proof.
  intros Hr. unfold pad4. rewrite <- app_assoc, scan_Z_skip by apply repeat_spaces.
  apply scan_print_nospace; assumption.
Qed.

Lemma print_Z_nonempty v : print_Z v <> [].
Proof.
  unfold print_Z. destruct (v <? 0) eqn:E; [discriminate|]. apply print_nat_ok. lia.
Qed.

Lemma print_Z_inj a b : print_Z a = print_Z b -> a = b.
Proof.
  intros H. pose proof (scan_print_nospace a [] I) as Ha. pose proof (scan_print_nospace b [] I) as Hb.
  rewrite app_nil_r in *. rewrite H in Ha. congruence.
Qed.

Section ROUNDTRIP.
Context {cfg : config}.
Hypothesis Hcfg : config_ok cfg.

Lemma int_sread_sprint p v old rest : representable cfg p v -> no_digit_head rest ->
  exists s, osl_int_sprint p v = Ok s /\
            osl_int_sread (s ++ rest) p old = Ok (1, v).
Proof.
  intros Hv Hr. exists (pad4 (print_Z v)). unfold osl_int_sprint, osl_int_sread, osl_int_sscanf, pswitch.
  rewrite scan_print by assumption.
  destruct (is_fixed p) eqn:F.
  - rewrite representable_fixed in Hv by assumption. rewrite Hv. auto.
  - rewrite representable_mp in Hv by assumption. rewrite Hv. auto.
Qed.

Lemma int_sread_sprint_txt p v old rest : representable cfg p v -> no_digit_head rest ->
  exists s, osl_int_sprint_txt p v = Ok s /\
            osl_int_sread (s ++ rest) p old = Ok (1, v).
Proof.
  intros Hv Hr. exists (print_Z v). unfold osl_int_sprint_txt, osl_int_sread, osl_int_sscanf, pswitch.
  rewrite scan_print_nospace by assumption.
  destruct (is_fixed p) eqn:F.
  - rewrite representable_fixed in Hv by assumption. rewrite Hv. auto.
  - rewrite representable_mp in Hv by assumption. rewrite Hv. auto.
Qed.

(** The number of decimal digits: lllog10 counts exactly the digits printed. *)
Lemma lllog10_loop_ok fuel : forall x n, 0 <= x < 2 ^ Z.of_nat fuel ->
  lllog10_loop (S fuel) x n =
  Ok (n + (if x =? 0 then 0 else Z.of_nat (List.length (digits_loop (S fuel) x [])))).
Proof.
  induction fuel as [|f IH]; intros x n Hx.
  - change (2 ^ Z.of_nat 0) with 1 in Hx. assert (x = 0) by lia. subst. cbn. f_equal; lia.
  - change (lllog10_loop (S (S f)) x n) with
      (if x =? 0 then Ok n else lllog10_loop (S f) (Z.quot x 10) (n + 1)).
    destruct (Z.eqb_spec x 0) as [->|Hnz]; [f_equal; lia|].
    rewrite Z.quot_div_nonneg by lia.
    rewrite Nat2Z.inj_succ, Z.pow_succ_r in Hx by lia.
    rewrite IH by lia. f_equal.
    change (digits_loop (S (S f)) x []) with
      (if x <? 10 then [digit_chr x] else digits_loop (S f) (x / 10) [digit_chr (x mod 10)]).
    destruct (Z.ltb_spec x 10).
    + destruct (Z.eqb_spec (x / 10) 0); cbn [List.length]; lia.
    + destruct (Z.eqb_spec (x / 10) 0); [lia|].
      rewrite (digits_loop_acc (S f) (x / 10) [_]), app_length. cbn [List.length]. lia.
Qed.

Lemma digits_loop_fuel f : forall f' n, 0 <= n < 2 ^ Z.of_nat f -> (f <= f')%nat -> (1 <= f)%nat ->
  digits_loop f' n [] = digits_loop f n [].
Proof.
  induction f as [|f IH]; intros f' n Hn Hf H1; [lia|].
  destruct f' as [|f']; [lia|]. cbn [digits_loop]. destruct (Z.ltb_spec n 10); [reflexivity|].
  rewrite (digits_loop_acc f'), (digits_loop_acc f). f_equal.
  rewrite Nat2Z.inj_succ, Z.pow_succ_r in Hn by lia.
  destruct f as [|f]. { change (2 ^ Z.of_nat 0) with 1 in Hn. lia. }
  apply IH; lia.
Qed.

Lemma size10_exact p v : is_fixed p = true -> representable cfg p v -> ~ is_min cfg p v ->
  osl_int_size_in_base_10 p v =
  Ok (if v =? 0 then 0 else Z.of_nat (List.length (print_Z (Z.abs v)))).
Proof.
  intros F Hv Hm. unfold osl_int_size_in_base_10, lllog10. rewrite F.
  pose proof (notmin_in64 Hcfg p v F Hv Hm) as H64. unfold in64 in H64.
  unfold c_abs. rewrite csigned_ok by (unfold fits; change (smin 64) with (-9223372036854775808);
      change (smax 64) with 9223372036854775807; lia). cbn [bind].
  rewrite lllog10_loop_ok by (apply print_nat_fuel; lia).
  f_equal. unfold print_Z. destruct (Z.ltb_spec (Z.abs v) 0); [lia|].
  destruct (Z.eqb_spec v 0) as [->|]; [reflexivity|].
  destruct (Z.eqb_spec (Z.abs v) 0); [lia|]. unfold print_nat_Z.
  rewrite (digits_loop_fuel (S (Z.to_nat (Z.log2 (Z.abs v))))); [lia|apply print_nat_fuel; lia|lia|lia].
Qed.

End ROUNDTRIP.
