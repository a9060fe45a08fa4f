(** * C08: vector operations are componentwise *)
From Coq Require Import ZifyBool ZifyNat.
From Verif Require Import Base IntModel VectorModel RelationModel Spec RelSpec LoopLemmas IntProofs VectorProofs.

Lemma Forall2_at (P : Z -> Z -> Prop) a b i :
  Forall2 P a b -> 0 <= i < zlength a -> P (znth 0 a i) (znth 0 b i).
Proof.
  intros H. revert i. induction H as [|x y a b Hxy _ IH]; intros i Hi.
  - unfold zlength in Hi; cbn in Hi; lia.
  - rewrite zlength_cons in Hi. rewrite !znth_cons by lia. destruct (i =? 0) eqn:E; [assumption|].
    apply IH. lia.
Qed.

(** Addition: every component is the mathematical sum whenever the sums are
    representable (the guard of osl_int_add additionally misfires on the most
    negative second operand in a checked build, see C01_add_guard_refuted). *)
Theorem C08_add_componentwise : forall (cfg : config) (v1 v2 : vector),
  config_ok cfg -> wf_vec cfg v1 -> wf_vec cfg v2 ->
  vsize v1 = vsize v2 -> vprec v1 = vprec v2 ->
  Forall2 (fun a b => representable cfg (vprec v1) (a + b) /\
                      (ndebug cfg = true \/ ~ (a < 0 /\ is_min cfg (vprec v1) b))) (vv v1) (vv v2) ->
  osl_vector_add (Some v1) (Some v2) =
    Ok (mkvec (vprec v1) (vsize v1) (zip_with Z.add (vv v1) (vv v2))).
Proof.
  intros cfg v1 v2 Hc H1 H2 Hs Hp Hf. apply vector_zip_ok; auto. intros i Hi.
  destruct H1 as (? & S1 & R1), H2 as (? & S2 & R2).
  destruct (Forall2_at _ _ _ i Hf) as [Hr Hm]; [lia|].
  apply add_exact; auto; [apply (Forall_at _ _ _ _ R1)|rewrite Hp; apply (Forall_at _ _ _ _ R2)]; lia.
Qed.
Print Assumptions C08_add_componentwise.

Theorem C08_sub_componentwise : forall (cfg : config) (v1 v2 : vector),
  config_ok cfg -> wf_vec cfg v1 -> wf_vec cfg v2 ->
  vsize v1 = vsize v2 -> vprec v1 = vprec v2 ->
  Forall2 (fun a b => representable cfg (vprec v1) (a - b) /\ ~ is_min cfg (vprec v1) b) (vv v1) (vv v2) ->
  osl_vector_sub (Some v1) (Some v2) =
    Ok (mkvec (vprec v1) (vsize v1) (zip_with Z.sub (vv v1) (vv v2))).
Proof.
  intros cfg v1 v2 Hc H1 H2 Hs Hp Hf. apply vector_zip_ok; auto. intros i Hi.
  destruct H1 as (? & S1 & R1), H2 as (? & S2 & R2).
  destruct (Forall2_at _ _ _ i Hf) as [Hr Hm]; [lia|].
  apply sub_exact; auto; [apply (Forall_at _ _ _ _ R1)|rewrite Hp; apply (Forall_at _ _ _ _ R2)]; lia.
Qed.
Print Assumptions C08_sub_componentwise.

(** In a checked build, one overflowing component stops the program: no vector
    with a wrong component is ever returned. *)
Theorem C08_add_overflow_stops : forall (cfg : config) (v1 v2 : vector) (k : Z),
  config_ok cfg -> ndebug cfg = false -> wf_vec cfg v1 -> wf_vec cfg v2 ->
  vsize v1 = vsize v2 -> vprec v1 = vprec v2 ->
  Forall (fun b => ~ is_min cfg (vprec v1) b) (vv v2) ->
  0 <= k < vsize v1 ->
  ~ representable cfg (vprec v1) (component (vv v1) k + component (vv v2) k) ->
  osl_vector_add (Some v1) (Some v2) = Err.
Proof.
  intros cfg v1 v2 k Hc N H1 H2 Hs Hp Hm Hk Ho.
  pose proof H1 as (S0 & S1 & R1). pose proof H2 as (? & S2 & R2).
  assert (Hrep : forall i, 0 <= i < vsize v1 -> representable cfg (vprec v1) (znth 0 (vv v1) i) /\
     representable cfg (vprec v1) (znth 0 (vv v2) i) /\ ~ is_min cfg (vprec v1) (znth 0 (vv v2) i)).
  { intros i Hi. split; [apply (Forall_at _ _ _ _ R1); lia|].
    split; [rewrite Hp; apply (Forall_at _ _ _ _ R2); lia|].
    apply (Forall_at (fun b => ~ is_min cfg (vprec v1) b)); [assumption|lia]. }
  apply (vector_zip_err osl_int_add v1 v2 k); auto.
  - intros i Hi. destruct (Hrep i Hi) as (Ra & Rb & Nm).
    destruct (representable_dec (vprec v1) (znth 0 (vv v1) i + znth 0 (vv v2) i)) as [Hy|Hn].
    + right. eexists. apply add_exact; auto. right. tauto.
    + left. apply add_overflow; auto.
  - destruct (Hrep k Hk) as (Ra & Rb & Nm). apply add_overflow; auto.
Qed.
Print Assumptions C08_add_overflow_stops.

(** Operands that are NULL or of different size or precision are refused. *)
Theorem C08_mismatch_stops : forall (cfg : config) (o1 o2 : option vector),
  match o1, o2 with Some v1, Some v2 => vsize v1 <> vsize v2 \/ vprec v1 <> vprec v2 | _, _ => True end ->
  osl_vector_add o1 o2 = Err /\ osl_vector_sub o1 o2 = Err.
Proof.
  intros cfg [v1|] [v2|] H; try (split; reflexivity).
  unfold osl_vector_add, osl_vector_sub, vector_zip.
  destruct (Z.eqb_spec (vsize v1) (vsize v2)); [|split; reflexivity].
  destruct (Z.eqb_spec (vprec v1) (vprec v2)); [|split; reflexivity]. tauto.
Qed.
Print Assumptions C08_mismatch_stops.

(** add_scalar changes the last component only. *)
Theorem C08_add_scalar : forall (cfg : config) (v : vector) (s : Z) (init : list Z) (c : Z),
  config_ok cfg -> wf_vec cfg v -> c_int s ->
  vv v = init ++ [c] -> init <> [] ->
  representable cfg (vprec v) (c + s) -> (ndebug cfg = true \/ ~ (c < 0 /\ s = - 2 ^ 31)) ->
  osl_vector_add_scalar (Some v) s = Ok (mkvec (vprec v) (vsize v) (init ++ [c + s])).
Proof.
  intros cfg v s init c Hc Hv Hs Ev Hi Hr Hm. pose proof Hv as (Hp & Hsz & HR).
  assert (Hlen : 1 <= zlength init).
  { destruct init; [contradiction|]. rewrite zlength_cons. pose proof (zlength_nonneg init). lia. }
  assert (Hlast : znth 0 (vv v) (vsize v - 1) = c).
  { rewrite Hsz, Ev, zlength_app, znth_app by (rewrite zlength_cons; cbn; lia).
    rewrite zlength_cons, zlength_nil.
    destruct (Z.ltb_spec (zlength init + (1 + 0) - 1) (zlength init)); [lia|].
    replace (zlength init + (1 + 0) - 1 - zlength init) with 0 by lia. reflexivity. }
  rewrite add_scalar_ok; auto.
  - rewrite Hlast. do 2 f_equal. rewrite Hsz, Ev, zlength_app, zlength_cons, zlength_nil.
    replace (Z.to_nat (zlength init + (1 + 0) - 1)) with (length init) by (unfold zlength; lia).
    clear. induction init as [|x l IH]; cbn; congruence.
  - rewrite Hsz, Ev, zlength_app, zlength_cons, zlength_nil. lia.
  - rewrite Hlast. assumption.
  - rewrite Hlast. intros x <-. apply add_si_exact; auto.
    rewrite Ev in HR. apply Forall_app in HR as [_ HR]. apply Forall_inv in HR. assumption.
Qed.
Print Assumptions C08_add_scalar.

Theorem C08_add_scalar_too_short_stops : forall (cfg : config) (ov : option vector) (s : Z),
  match ov with Some v => vsize v < 2 | None => True end ->
  osl_vector_add_scalar ov s = Err.
Proof.
  intros cfg [v|] s H; [|reflexivity]. unfold osl_vector_add_scalar.
  destruct (Z.ltb_spec (vsize v) 2); [reflexivity|lia].
Qed.
Print Assumptions C08_add_scalar_too_short_stops.

(** mul_scalar multiplies every component, the tag included. *)
Theorem C08_mul_scalar : forall (cfg : config) (v : vector) (s : Z),
  config_ok cfg -> wf_vec cfg v -> c_int s ->
  Forall (fun x => representable cfg (vprec v) (x * s)) (vv v) ->
  osl_vector_mul_scalar (Some v) s = Ok (mkvec (vprec v) (vsize v) (map (fun x => x * s) (vv v))).
Proof. intros cfg v s Hc. apply mul_scalar_ok. assumption. Qed.
Print Assumptions C08_mul_scalar.

(** Tag setters change component 0 only. *)
Theorem C08_tag : forall (cfg : config) (v : vector) (t : Z) (tl : list Z),
  config_ok cfg -> wf_vec cfg v -> vv v = t :: tl ->
  osl_vector_tag_inequality (Some v) = Ok (mkvec (vprec v) (vsize v) (1 :: tl)) /\
  osl_vector_tag_equality (Some v) = Ok (mkvec (vprec v) (vsize v) (0 :: tl)).
Proof.
  intros cfg v t tl Hc (Hp & Hs & _) E. unfold osl_vector_tag_inequality, osl_vector_tag_equality.
  pose proof (zlength_nonneg tl). rewrite E, zlength_cons in Hs.
  destruct (Z.ltb_spec (vsize v) 1); [lia|]. rewrite !set_si_ok by assumption. cbn [bind].
  rewrite E, !aset_ok by (rewrite zlength_cons; lia). split; reflexivity.
Qed.
Print Assumptions C08_tag.

Theorem C08_tag_empty_stops : forall (cfg : config) (ov : option vector),
  match ov with Some v => vsize v < 1 | None => True end ->
  osl_vector_tag_inequality ov = Err /\ osl_vector_tag_equality ov = Err.
Proof.
  intros cfg [v|] H; [|split; reflexivity]. unfold osl_vector_tag_inequality, osl_vector_tag_equality.
  destruct (Z.ltb_spec (vsize v) 1); [split; reflexivity|lia].
Qed.
Print Assumptions C08_tag_empty_stops.

(** Equality is equality of precision, size and components. *)
Theorem C08_equal : forall (cfg : config) (v1 v2 : vector),
  config_ok cfg -> wf_vec cfg v1 -> wf_vec cfg v2 ->
  exists b, osl_vector_equal (Some v1) (Some v2) = Ok b /\
    (b = true <-> vprec v1 = vprec v2 /\ vsize v1 = vsize v2 /\ vv v1 = vv v2).
Proof.
  intros cfg v1 v2 Hc H1 H2. destruct (vector_equal_ok v1 v2 H1 H2) as (b & E & Hb).
  exists b. split; [exact E|]. rewrite Hb. destruct v1, v2; cbn. split.
  - intros H; inversion H; auto.
  - intros (-> & -> & ->). reflexivity.
Qed.
Print Assumptions C08_equal.

(** ... but with exactly one NULL argument the function dereferences it. *)
Theorem C08_equal_one_null_refuted : forall (cfg : config) (v : vector),
  osl_vector_equal None None = Ok true /\
  osl_vector_equal (Some v) None = UB /\ osl_vector_equal None (Some v) = UB.
Proof. intros. repeat split. Qed.
Print Assumptions C08_equal_one_null_refuted.

(** is_scalar: every component but the last is zero (the tag included). *)
Theorem C08_is_scalar : forall (cfg : config) (v : vector),
  config_ok cfg -> wf_vec cfg v ->
  exists b, osl_vector_is_scalar (Some v) = Ok b /\
    (b = true <-> Forall (fun x => x = 0) (removelast (vv v))).
Proof.
  intros cfg v Hc Hv. destruct (is_scalar_ok v Hv) as (b & E & Hb). exists b. split; [exact E|].
  rewrite Hb. destruct Hv as (_ & Hs & _). rewrite Hs. clear.
  destruct (vv v) as [|x l] using rev_ind; [cbn; split; intros; [constructor|lia]|].
  rewrite removelast_last, zlength_app. change (zlength [x]) with 1. rewrite (Forall_znth _ 0 l).
  split; intros H i Hi; specialize (H i); rewrite znth_app in * by lia;
    destruct (Z.ltb_spec i (zlength l)); try lia; auto; apply H; lia.
Qed.
Print Assumptions C08_is_scalar.

(** Fresh vectors are zero. *)
Theorem C08_malloc_zero : forall (cfg : config) (p n : Z),
  supported cfg p -> 0 <= n -> osl_vector_pmalloc p n = Ok (mkvec p n (repeat 0 (Z.to_nat n))).
Proof. intros cfg p n. apply pmalloc_vec_ok. Qed.
Print Assumptions C08_malloc_zero.

(** Non-vacuity: concrete vectors meet the hypotheses. *)
Definition ex_v1 := mkvec 64 4 [1; 3; -2; 7].
Definition ex_v2 := mkvec 64 4 [0; 5; 9223372036854775807; 1].
Example ex_v1_wf : wf_vec lp64_debug ex_v1.
Proof. unfold wf_vec; cbn [vprec vsize vv ex_v1 ex_v2]; wf_lit. Qed.
Example ex_v2_wf : wf_vec lp64_debug ex_v2.
Proof. unfold wf_vec; cbn [vprec vsize vv ex_v1 ex_v2]; wf_lit. Qed.
Example ex_add : @osl_vector_add lp64_debug (Some ex_v1) (Some ex_v2)
  = Ok (mkvec 64 4 [1; 8; 9223372036854775805; 8]).
Proof. reflexivity. Qed.
Example ex_sub_overflow : @osl_vector_sub lp64_debug (Some ex_v1) (Some ex_v2) = Err.
Proof. reflexivity. Qed.
Example ex_scalar : @osl_vector_is_scalar lp64_debug (Some (mkvec 32 3 [0;0;8])) = Ok true
  /\ @osl_vector_is_scalar lp64_debug (Some (mkvec 32 3 [1;0;8])) = Ok false.
Proof. split; reflexivity. Qed.
