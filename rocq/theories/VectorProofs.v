(** * Proofs about the model of vector.c *)
From Coq Require Import ZifyBool ZifyNat.
From Verif Require Import Base IntModel VectorModel RelationModel Spec RelSpec LoopLemmas IntProofs.

Section VECTORPROOFS.
Context {cfg : config}.
Hypothesis Hcfg : config_ok cfg.

Lemma pswitch_supported {A} p (a b : res A) : supported cfg p -> a = b -> pswitch p a b = a.
Proof.
  intros Hs ->. unfold pswitch. destruct (supported_cases p Hs) as [[-> _]|(-> & -> & _)]; reflexivity.
Qed.

Lemma assign_ok p v : supported cfg p -> osl_int_assign p v = Ok v.
Proof. intros. apply pswitch_supported; auto. Qed.
Lemma set_si_ok p v : supported cfg p -> osl_int_set_si p v = Ok v.
Proof. intros. apply pswitch_supported; auto. Qed.
Lemma init_set_si_ok p v : supported cfg p -> osl_int_init_set_si p v = Ok v.
Proof. intros. apply pswitch_supported; auto. Qed.
Lemma swap_ok p a b : supported cfg p -> osl_int_swap p a b = Ok (b, a).
Proof. intros. apply pswitch_supported; auto. Qed.
Lemma ne_ok p a b : supported cfg p -> osl_int_ne p a b = Ok (negb (a =? b)).
Proof. intros. unfold osl_int_ne. rewrite eq_exact by assumption. reflexivity. Qed.

Lemma representable_int p v : supported cfg p -> c_int v -> representable cfg p v.
Proof.
  unfold supported, representable, c_int. intros [->|[->|[-> Hg]]] Hv; [left|right; left|right; right].
  - split; [reflexivity|]. destruct Hcfg as [E|E]; rewrite E; lia.
  - split; [reflexivity|]. lia.
  - auto.
Qed.

Lemma pmalloc_vec_ok p n : supported cfg p -> 0 <= n ->
  osl_vector_pmalloc p n = Ok (mkvec p n (repeat 0 (Z.to_nat n))).
Proof.
  intros Hp Hn. unfold osl_vector_pmalloc. destruct (Z.eqb_spec n 0); [subst; reflexivity|].
  destruct (Z.ltb_spec n 0); [lia|].
  destruct (fill1 0 0 n (fun i v => x <- osl_int_init_set_si p 0 ;; aset v i x) (fun _ => 0)
              (repeat POISON (Z.to_nat n)) 0) as (l & E & Hl & Hc).
  - lia.
  - lia.
  - rewrite zlength_repeat. lia.
  - intros. rewrite init_set_si_ok by assumption. cbn [bind]. f_equal. lia.
  - rewrite E. cbn [bind]. do 2 f_equal. rewrite zlength_repeat in Hl.
    apply (list_ext 0); [rewrite zlength_repeat; lia|]. intros i Hi. rewrite Hc by lia.
    rewrite znth_repeat0. destruct (Z.leb_spec (0 + 0) i), (Z.ltb_spec i (n + 0)); cbn; try lia.
Qed.


Lemma zip_length f a b : zlength a = zlength b -> zlength (zip_with f a b) = zlength a.
Proof. unfold zip_with, zlength. rewrite map_length, combine_length. lia. Qed.

Lemma zip_nth f a b i : zlength a = zlength b -> 0 <= i < zlength a ->
  znth 0 (zip_with f a b) i = f (znth 0 a i) (znth 0 b i).
Proof.
  intros Hl Hi. unfold zip_with. rewrite (znth_map (0, 0)).
  - unfold znth. rewrite combine_nth by (unfold zlength in Hl; lia). reflexivity.
  - unfold zlength in *. rewrite combine_length. lia.
Qed.

Lemma vector_zip_ok op f v1 v2 :
  wf_vec cfg v1 -> wf_vec cfg v2 -> vsize v1 = vsize v2 -> vprec v1 = vprec v2 ->
  (forall i, 0 <= i < vsize v1 ->
     op (vprec v1) (znth 0 (vv v1) i) (znth 0 (vv v2) i) = Ok (f (znth 0 (vv v1) i) (znth 0 (vv v2) i))) ->
  vector_zip op (Some v1) (Some v2) = Ok (mkvec (vprec v1) (vsize v1) (zip_with f (vv v1) (vv v2))).
Proof.
  intros (Hp & Hs1 & _) (_ & Hs2 & _) Hsz Hpr Hop. unfold vector_zip.
  destruct (Z.eqb_spec (vsize v1) (vsize v2)); [|contradiction].
  destruct (Z.eqb_spec (vprec v1) (vprec v2)); [|contradiction]. cbn [negb orb].
  pose proof (zlength_nonneg (vv v1)).
  rewrite pmalloc_vec_ok by (assumption || lia). cbn [bind vv vprec vsize].
  run_fill1 (fun i => f (znth 0 (vv v1) i) (znth 0 (vv v2) i)) 0; cycle 4.
  - do 2 f_equal. rewrite zlength_repeat in Hl.
    apply (list_ext 0); [rewrite zip_length by lia; lia|]. intros i Hi. rewrite Hc by lia.
    destruct (Z.leb_spec (0 + 0) i), (Z.ltb_spec i (vsize v1 + 0)); cbn [andb]; try lia.
    rewrite zip_nth by lia. f_equal; f_equal; lia.
  - lia.
  - lia.
  - rewrite zlength_repeat. lia.
  - intros i l' Hi Hl' _. rewrite !(aget_ok 0) by lia. cbn [bind]. rewrite Hop by lia. cbn [bind].
    f_equal. lia.
Qed.

Lemma vector_zip_err op v1 v2 k :
  wf_vec cfg v1 -> wf_vec cfg v2 -> vsize v1 = vsize v2 -> vprec v1 = vprec v2 ->
  (forall i, 0 <= i < vsize v1 ->
     op (vprec v1) (znth 0 (vv v1) i) (znth 0 (vv v2) i) = Err \/
     exists x, op (vprec v1) (znth 0 (vv v1) i) (znth 0 (vv v2) i) = Ok x) ->
  0 <= k < vsize v1 -> op (vprec v1) (znth 0 (vv v1) k) (znth 0 (vv v2) k) = Err ->
  vector_zip op (Some v1) (Some v2) = Err.
Proof.
  intros (Hp & Hs1 & _) (_ & Hs2 & _) Hsz Hpr Hop Hk Hke. unfold vector_zip.
  destruct (Z.eqb_spec (vsize v1) (vsize v2)); [|contradiction].
  destruct (Z.eqb_spec (vprec v1) (vprec v2)); [|contradiction]. cbn [negb orb].
  rewrite pmalloc_vec_ok by (assumption || lia). cbn [bind vv vprec vsize].
  rewrite (cfor_err (fun _ l => zlength l = vsize v1) 0 (vsize v1) k); try reflexivity; try lia.
  - rewrite zlength_repeat. lia.
  - intros i l Hi Hl. rewrite !(aget_ok 0) by lia. cbn [bind].
    destruct (Hop i) as [E|[x E]]; [lia|left; rewrite E; reflexivity|right].
    rewrite E. cbn [bind]. rewrite aset_ok by lia. eexists. split; [reflexivity|].
    rewrite zlength_list_set. assumption.
  - intros l Hl. rewrite !(aget_ok 0) by lia. cbn [bind]. rewrite Hke. reflexivity.
Qed.

Lemma vector_equal_ok v1 v2 : wf_vec cfg v1 -> wf_vec cfg v2 ->
  exists b, osl_vector_equal (Some v1) (Some v2) = Ok b /\ (b = true <-> v1 = v2).
Proof.
  intros (Hp & Hs1 & _) (_ & Hs2 & _). unfold osl_vector_equal.
  destruct (Z.eqb_spec (vsize v1) (vsize v2)); [|exists false; split; [reflexivity|split; [discriminate|congruence]]].
  destruct (Z.eqb_spec (vprec v1) (vprec v2)); [|exists false; split; [reflexivity|split; [discriminate|congruence]]].
  cbn [negb orb].
  destruct (cforall_dec 0 (vsize v1) (fun i => a <- aget (vv v1) i ;; b <- aget (vv v2) i ;;
                       ne <- osl_int_ne (vprec v1) a b ;; Ok (negb ne))
     (fun i => znth 0 (vv v1) i =? znth 0 (vv v2) i)) as (b & E & Hb).
  - intros i Hi. rewrite !(aget_ok 0) by lia. cbn [bind]. rewrite ne_ok by assumption. cbn [bind].
    rewrite negb_involutive. reflexivity.
  - exists b. split; [exact E|]. rewrite Hb. split.
    + intros H. destruct v1 as [p1 s1 l1], v2 as [p2 s2 l2]; cbn [vprec vsize vv] in *. f_equal; try assumption.
      apply (list_ext 0); [lia|]. intros i Hi. apply Z.eqb_eq, H. lia.
    + intros -> i Hi. apply Z.eqb_refl.
Qed.

Lemma is_scalar_ok v : wf_vec cfg v ->
  exists b, osl_vector_is_scalar (Some v) = Ok b /\
    (b = true <-> forall i, 0 <= i < vsize v - 1 -> znth 0 (vv v) i = 0).
Proof.
  intros (Hp & Hs & _). unfold osl_vector_is_scalar.
  destruct (cforall_dec 0 (vsize v - 1) (fun i => x <- aget (vv v) i ;; osl_int_zero (vprec v) x)
     (fun i => znth 0 (vv v) i =? 0)) as (b & E & Hb).
  - intros i Hi. rewrite (aget_ok 0) by lia. cbn [bind]. apply zero_ok; assumption.
  - exists b. split; [exact E|]. rewrite Hb. split; intros H i Hi; specialize (H i Hi); lia.
Qed.

Lemma vec_map_loop p (l : list Z) (f : Z -> Z) (op : Z -> res Z) n :
  0 <= n -> n = zlength l -> (forall i, 0 <= i < n -> op (znth 0 l i) = Ok (f (znth 0 l i))) ->
  cfor 0 n (fun i v => x <- aget l i ;; y <- op x ;; aset v i y) (repeat p (Z.to_nat n)) = Ok (map f l).
Proof.
  intros Hn El Hop.
  run_fill1 (fun i => f (znth 0 l i)) 0; cycle 4.
  - f_equal. rewrite zlength_repeat in Hl.
    apply (list_ext 0); [rewrite zlength_map; lia|]. intros i Hi. rewrite Hc by lia.
    rewrite (znth_map 0) by lia.
    destruct (Z.leb_spec (0 + 0) i), (Z.ltb_spec i (n + 0)); cbn [andb]; try lia.
    f_equal; f_equal; lia.
  - lia.
  - lia.
  - rewrite zlength_repeat. lia.
  - intros i l'' Hi Hl' _. rewrite !(aget_ok 0) by lia. cbn [bind]. rewrite Hop by lia. cbn [bind].
    f_equal. lia.
Qed.

Lemma mul_scalar_ok v s : wf_vec cfg v -> c_int s ->
  Forall (fun x => representable cfg (vprec v) (x * s)) (vv v) ->
  osl_vector_mul_scalar (Some v) s =
    Ok (mkvec (vprec v) (vsize v) (map (fun x => x * s) (vv v))).
Proof.
  intros (Hp & Hs & Hr) Hi Hm. unfold osl_vector_mul_scalar. pose proof (zlength_nonneg (vv v)).
  rewrite pmalloc_vec_ok by (assumption || lia). cbn [bind vv vprec vsize].
  rewrite (vec_map_loop 0 (vv v) (fun x => x * s) (fun x => osl_int_mul_si (vprec v) x s)); try lia.
  - reflexivity.
  - intros i Hi'. apply mul_si_exact; try assumption;
    [apply (Forall_at _ _ _ _ Hr) | apply (Forall_at _ _ _ _ Hm)]; lia.
Qed.

Lemma add_scalar_ok v s : wf_vec cfg v -> c_int s -> 2 <= vsize v ->
  representable cfg (vprec v) (znth 0 (vv v) (vsize v - 1) + s) ->
  (forall x, osl_int_add_si (vprec v) (znth 0 (vv v) (vsize v - 1)) s = x ->
     x = Ok (znth 0 (vv v) (vsize v - 1) + s)) ->
  osl_vector_add_scalar (Some v) s =
    Ok (mkvec (vprec v) (vsize v) (list_set (Z.to_nat (vsize v - 1)) (znth 0 (vv v) (vsize v - 1) + s) (vv v))).
Proof.
  intros (Hp & Hs & Hr) Hi H2 Hrep Hadd. unfold osl_vector_add_scalar.
  destruct (Z.ltb_spec (vsize v) 2); [lia|].
  rewrite pmalloc_vec_ok by (assumption || lia). cbn [bind vv vprec vsize].
  rewrite (vec_map_loop 0 (vv v) (fun x => x) (fun x => osl_int_assign (vprec v) x)); try lia.
  - cbn [bind]. rewrite map_id. rewrite (aget_ok 0) by lia. cbn [bind].
    rewrite (Hadd _ eq_refl). cbn [bind]. rewrite aset_ok by lia. reflexivity.
  - intros. apply assign_ok. assumption.
Qed.

End VECTORPROOFS.
