(** * More proofs about relation.c: clone, vectors, swap, equality, concat *)
From Coq Require Import ZifyBool ZifyNat.
From Verif Require Import Base IntModel VectorModel RelationModel Spec RelSpec LoopLemmas IntProofs VectorProofs RelationProofs.

Section RELATIONPROOFS2.
Context {cfg : config}.
Hypothesis Hcfg : config_ok cfg.

(** ** Clone *)
Lemma clone_part_ok r n : wf_rel cfg r -> 0 <= n <= nrows r ->
  clone_part r n = Ok (with_rows r (ncols r) (firstn (Z.to_nat n) (rows r))).
Proof.
  intros W Hn. unfold clone_part.
  pose proof (wf_mat r W) as M1. pose proof (wf_nn r W). pose proof (wf_supp r W) as Hp.
  destruct (pmalloc_ok (rprec r) n (ncols r)) as (m0 & E0 & M0 & C0); try (assumption || lia).
  rewrite E0. cbn [bind]. fields.
  destruct (copy_rows (rprec r) (rm r) (nrows r) n (ncols r) 0 n 0 0
     (fun i j m => copy_cell (rprec r) (rm r) i j m i j) m0) as (m3 & E3 & M3 & C3).
  { assumption. } { assumption. } { assumption. } { lia. } { lia. } { intros. f_equal; lia. }
  rewrite E3. cbn [bind]. f_equal. fold (with_m r n (ncols r) m3).
  apply with_m_rows.
  - assumption.
  - rewrite zlength_firstn by lia. rewrite rows_length by assumption. lia.
  - pose proof (rows_width r W) as Hw. rewrite <- (firstn_skipn (Z.to_nat n) (rows r)), Forall_app in Hw. tauto.
  - intros i j Hi Hj. rewrite C3 by lia. unfold cell at 3. rewrite znth_firstn by lia.
    fold (cell (rows r) i j). bsplit. rewrite cell_rows by assumption. f_equal; lia.
Qed.

Lemma clone_part_all r : wf_rel cfg r -> clone_part r (nrows r) = Ok r.
Proof.
  intros W. pose proof (wf_nn r W). rewrite clone_part_ok by (assumption || lia). f_equal.
  rewrite <- (rows_length r W). unfold zlength. rewrite Nat2Z.id, firstn_all. apply with_rows_id. assumption.
Qed.

Lemma nb_components_length u : osl_relation_nb_components u = zlength u.
Proof. induction u as [|r u IH]; [reflexivity|]. cbn [osl_relation_nb_components]. rewrite zlength_cons. lia. Qed.

Lemma nclone_loop_ok k u : wf_union cfg u -> (k <= length u)%nat -> nclone_loop k u = Ok (firstn k u).
Proof.
  intros H. revert k. induction H as [|r u Hr Hu IH]; intros [|k] Hk; cbn in Hk; try reflexivity; [lia|].
  cbn. rewrite clone_part_all by assumption. cbn [bind]. rewrite IH by lia. reflexivity.
Qed.

Lemma nclone_ok u n : wf_union cfg u -> 0 <= n <= zlength u ->
  osl_relation_nclone u n = Ok (firstn (Z.to_nat n) u).
Proof.
  intros W Hn. unfold osl_relation_nclone. rewrite nb_components_length. destruct (Z.eqb_spec n (-1)); [lia|]. destruct (Z.ltb_spec (zlength u) n); [lia|].
  apply nclone_loop_ok; [assumption|]. unfold zlength in Hn. lia.
Qed.

Lemma clone_ok u : wf_union cfg u -> osl_relation_clone u = Ok u.
Proof.
  intros W. destruct u as [|r u]; [reflexivity|]. unfold osl_relation_clone, osl_relation_nclone.
  rewrite nb_components_length. change (-1 =? -1) with true. cbn iota.
  rewrite Z.ltb_irrefl. unfold zlength. rewrite Nat2Z.id.
  rewrite nclone_loop_ok by (assumption || lia). rewrite firstn_all. reflexivity.
Qed.

Lemma clone_nconstraints_ok u n : wf_union cfg u -> 0 <= n -> Forall (fun r => n <= nrows r) u ->
  osl_relation_clone_nconstraints u n =
    Ok (map (fun r => with_rows r (ncols r) (firstn (Z.to_nat n) (rows r))) u).
Proof.
  intros W Hn Hf. induction W as [|r u Hr Hu IH]; [reflexivity|].
  cbn. assert (n <= nrows r) by exact (Forall_inv Hf). destruct (Z.eqb_spec n (-1)); [lia|]. destruct (Z.ltb_spec (nrows r) n); [lia|].
  rewrite clone_part_ok by (assumption || lia). cbn [bind]. rewrite IH by (eapply Forall_inv_tail; eassumption).
  reflexivity.
Qed.

Lemma clone_nconstraints_all u : wf_union cfg u -> osl_relation_clone_nconstraints u (-1) = Ok u.
Proof.
  intros W. induction W as [|r u Hr Hu IH]; [reflexivity|]. cbn [osl_relation_clone_nconstraints].
  change (-1 =? -1) with true. cbn iota. rewrite Z.ltb_irrefl, clone_part_all by assumption. cbn [bind].
  rewrite IH. reflexivity.
Qed.

Lemma add_app u1 u2 : osl_relation_add u1 u2 = u1 ++ u2.
Proof. induction u1; cbn; congruence. Qed.

Lemma union_ok u1 u2 : wf_union cfg u1 -> wf_union cfg u2 -> osl_relation_union u1 u2 = Ok (u1 ++ u2).
Proof.
  intros W1 W2. unfold osl_relation_union. rewrite !clone_ok by assumption. cbn [bind]. rewrite add_app.
  destruct u1, u2; reflexivity.
Qed.

(** ** Vectors *)
Lemma vector_row_ok_true r v row :
  rprec r = vprec v -> ncols r = vsize v -> 0 <= row < nrows r -> vector_row_ok r v row = true.
Proof. intros. unfold vector_row_ok. bsplit; try reflexivity. Qed.

Lemma replace_vector_mat r v row : supported cfg (rprec r) -> mat (nrows r) (ncols r) (rm r) ->
  wf_vec cfg v -> rprec r = vprec v -> ncols r = vsize v -> 0 <= row < nrows r ->
  exists m, osl_relation_replace_vector r v row = Ok (with_m r (nrows r) (ncols r) m) /\
    mat (nrows r) (ncols r) m /\
    forall a b, 0 <= a -> 0 <= b < ncols r -> cell m a b =
      if a =? row then znth 0 (vv v) b else cell (rm r) a b.
Proof.
  intros Hp M (Hvp & Hvs & _) Ep Ec Hrow. unfold osl_relation_replace_vector.
  rewrite vector_row_ok_true by assumption. cbn [negb]. pose proof (zlength_nonneg (vv v)).
  run_fill_row (nrows r) (ncols r) row 0 (fun b => znth 0 (vv v) b); try (assumption || lia).
  { intros j m' Hj Mm' _. rewrite (aget_ok 0) by lia. cbn [bind]. rewrite assign_ok by assumption. cbn [bind].
    f_equal; lia. }
  exists m. split; [reflexivity|]. split; [assumption|]. intros a b Ha Hb. rewrite Hm by lia.
  rewrite !Z.add_0_r, ?Z.sub_0_r. bsplit; reflexivity.
Qed.

Lemma replace_vector_ok r v row : wf_rel cfg r -> wf_vec cfg v ->
  rprec r = vprec v -> ncols r = vsize v -> 0 <= row < nrows r ->
  osl_relation_replace_vector r v row = Ok (with_rows r (ncols r) (replace_at row [vv v] (rows r))).
Proof.
  intros W Hv Ep Ec Hrow.
  destruct (replace_vector_mat r v row) as (m & E & M & C); auto using wf_supp, wf_mat.
  rewrite E. f_equal. destruct Hv as (_ & Hs & _). apply with_m_rows; try assumption.
  - rewrite replace_at_length; [apply rows_length; assumption|lia|].
    rewrite rows_length by assumption. change (zlength [vv v]) with 1. lia.
  - apply replace_at_Forall; [|apply rows_width; assumption]. repeat constructor. lia.
  - intros i j Hi Hj. rewrite C by lia. change (zlength [vv v]) with 1 in *.
    rewrite cell_replace_at by (rewrite ?rows_length by assumption; change (zlength [vv v]) with 1; lia).
    change (zlength [vv v]) with 1.
    bsplit; try (apply cell_rows; assumption). unfold cell. subst. rewrite Z.sub_diag. reflexivity.
Qed.

Lemma replace_vector_err r v row :
  rprec r <> vprec v \/ ncols r <> vsize v \/ row < 0 \/ nrows r <= row ->
  osl_relation_replace_vector r v row = Err.
Proof. intros H. unfold osl_relation_replace_vector, vector_row_ok. bsplit; reflexivity. Qed.

Definition vec_rel (v : vector) : relation :=
  mkrel (-1) (vprec v) 1 (vsize v) (-1) (-1) (-1) (-1) (if vsize v =? 0 then [] else [vv v]).

Lemma vec_rel_wf v : wf_vec cfg v -> wf_rel cfg (vec_rel v).
Proof.
  intros (Hp & Hs & Hr). unfold vec_rel. pose proof (zlength_nonneg (vv v)).
  split; [assumption|]. fields. split; [lia|]. split; [lia|]. split; [|split].
  - intros [H'|H']; [lia|]. rewrite H'. reflexivity.
  - intros _ H'. destruct (Z.eqb_spec (vsize v) 0); [lia|]. split; [reflexivity|]. repeat constructor. lia.
  - destruct (Z.eqb_spec (vsize v) 0); repeat constructor. assumption.
Qed.

Lemma vec_rel_rows v : wf_vec cfg v -> rows (vec_rel v) = [vv v].
Proof.
  intros (Hp & Hs & Hr). unfold rows, vec_rel. fields. destruct (Z.eqb_spec (vsize v) 0); [|reflexivity].
  rewrite (zlength_0 (vv v)) by lia. reflexivity.
Qed.

Lemma from_vector_ok v : wf_vec cfg v -> osl_relation_from_vector v = Ok (vec_rel v).
Proof.
  intros Hv. pose proof Hv as (Hp & Hs & Hr). unfold osl_relation_from_vector. pose proof (zlength_nonneg (vv v)).
  destruct (pmalloc_ok (vprec v) 1 (vsize v)) as (m0 & E0 & M0 & C0); try (assumption || lia).
  rewrite E0. cbn [bind].
  edestruct (replace_vector_mat (mkrel (-1) (vprec v) 1 (vsize v) (-1) (-1) (-1) (-1) m0) v 0)
    as (m & E & M & C); fields; try (assumption || reflexivity || lia).
  rewrite E. unfold with_m, vec_rel. fields. do 2 f_equal.
  change (if vsize v =? 0 then [] else [vv v]) with (mrep (vsize v) [vv v]).
  apply (mat_ext 1 (vsize v)); [assumption| |].
  - change 1 with (zlength [vv v]). apply mat_mrep; [lia|]. repeat constructor. lia.
  - intros i j Hi Hj. rewrite cell_mrep by lia. rewrite C by lia. replace i with 0 by lia. reflexivity.
Qed.

Lemma insert_vector_ok r v row0 : wf_rel cfg r -> wf_vec cfg v ->
  rprec r = vprec v -> ncols r = vsize v ->
  let row := if row0 =? -1 then nrows r else row0 in 0 <= row <= nrows r ->
  osl_relation_insert_vector r v row0 = Ok (with_rows r (ncols r) (insert_at row [vv v] (rows r))).
Proof.
  intros W Hv Ep Ec row Hrow. unfold osl_relation_insert_vector. rewrite from_vector_ok by assumption.
  cbn [bind]. rewrite <- (vec_rel_rows v Hv). apply insert_constraints_ok; auto using vec_rel_wf.
Qed.

Lemma insert_vector_err r v row0 : wf_vec cfg v ->
  let row := if row0 =? -1 then nrows r else row0 in
  rprec r <> vprec v \/ ncols r <> vsize v \/ nrows r < row \/ row < 0 ->
  osl_relation_insert_vector r v row0 = Err.
Proof.
  intros Hv row H. unfold osl_relation_insert_vector. rewrite from_vector_ok by assumption. cbn [bind].
  apply insert_constraints_err. exact H.
Qed.

Lemma zero_vec_wf p n : supported cfg p -> 0 <= n -> wf_vec cfg (mkvec p n (repeat 0 (Z.to_nat n))).
Proof.
  intros Hp Hn. split; [assumption|]. fields. rewrite zlength_repeat. split; [lia|].
  apply Forall_forall. intros x Hx. apply repeat_spec in Hx. subst. apply representable_zero; assumption.
Qed.

Lemma insert_blank_row_ok r row0 : wf_rel cfg r ->
  let row := if row0 =? -1 then nrows r else row0 in 0 <= row <= nrows r ->
  osl_relation_insert_blank_row r row0 =
    Ok (with_rows r (ncols r) (insert_at row [repeat 0 (Z.to_nat (ncols r))] (rows r))).
Proof.
  intros W row Hrow. pose proof (wf_nn r W). pose proof (wf_supp r W). unfold osl_relation_insert_blank_row.
  rewrite pmalloc_vec_ok by (assumption || lia). cbn [bind].
  rewrite insert_vector_ok; auto. apply zero_vec_wf; [assumption|lia].
Qed.

Lemma insert_blank_row_err r row0 : wf_rel cfg r ->
  let row := if row0 =? -1 then nrows r else row0 in nrows r < row \/ row < 0 ->
  osl_relation_insert_blank_row r row0 = Err.
Proof.
  intros W row Hrow. pose proof (wf_nn r W). pose proof (wf_supp r W). unfold osl_relation_insert_blank_row.
  rewrite pmalloc_vec_ok by (assumption || lia). cbn [bind].
  apply insert_vector_err; [apply zero_vec_wf; [assumption|lia]|]. tauto.
Qed.

(** ** Adding / subtracting a vector to a row *)
Lemma get_si_0 p t : representable cfg p t -> osl_int_get_si p t = Ok 0 \/ t <> 0.
Proof.
  intros Hr. destruct (Z.eq_dec t 0); [left|auto]. subst. unfold osl_int_get_si.
  change (INT_MAX <? 0) with false. change (0 <? INT_MIN) with false. cbn iota.
  change (wrap 32 0) with 0. rewrite pswitch_supported by (eauto using representable_supported).
  destruct (ndebug cfg); reflexivity.
Qed.

Lemma get_si_ok p v : supported cfg p -> c_int v -> osl_int_get_si p v = Ok v.
Proof.
  intros Hs Hv. unfold c_int in Hv. unfold osl_int_get_si. rewrite pswitch_supported by auto.
  unfold INT_MAX, INT_MIN. change (smax 32) with 2147483647. change (smin 32) with (-2147483648).
  destruct (ndebug cfg).
  - f_equal. apply wrap_fits; [lia|]. unfold fits. change (smax 32) with 2147483647. change (smin 32) with (-2147483648). lia.
  - bsplit; reflexivity.
Qed.

Lemma combine_vector_ok op f r v row :
  wf_rel cfg r -> wf_vec cfg v -> rprec r = vprec v -> ncols r = vsize v -> 0 <= row < nrows r ->
  1 <= ncols r -> c_int (znth 0 (znth [] (rows r) row) 0) ->
  (forall b, 1 <= b < ncols r -> op (rprec r) (znth 0 (znth [] (rows r) row) b) (znth 0 (vv v) b) =
     Ok (f (znth 0 (znth [] (rows r) row) b) (znth 0 (vv v) b))) ->
  combine_vector op r v row =
    Ok (with_rows r (ncols r) (replace_at row
      [ (if znth 0 (znth [] (rows r) row) 0 =? 0 then znth 0 (vv v) 0 else znth 0 (znth [] (rows r) row) 0)
        :: zip_with f (tl (znth [] (rows r) row)) (tl (vv v)) ] (rows r))).
Proof.
  intros W Hv Ep Ec Hrow Hc1 Htag Hop. unfold combine_vector.
  pose proof (wf_mat r W) as M1. pose proof (wf_supp r W) as Hp. destruct Hv as (_ & Hs & _).
  rewrite vector_row_ok_true by assumption. cbn [negb].
  pose proof (row_len r row W Hrow) as Hrl.
  remember (znth [] (rows r) row) as R eqn:ER.
  assert (HcR : forall b, 0 <= b < ncols r -> cell (rm r) row b = znth 0 R b).
  { intros b Hb. rewrite cell_rows by assumption. subst R. reflexivity. }
  rewrite (mget_ok (nrows r) (ncols r)) by (assumption || lia). cbn [bind].
  rewrite HcR by lia. rewrite get_si_ok by assumption. cbn [bind].
  set (t := znth 0 R 0) in *.
  assert (HM : exists m1, (if t =? 0 then x <- aget (vv v) 0;; y <- osl_int_assign (rprec r) x;; mset (rm r) row 0 y
             else Ok (rm r)) = Ok m1 /\ mat (nrows r) (ncols r) m1 /\
      forall a b, 0 <= a -> 0 <= b -> cell m1 a b =
        if (a =? row) && (b =? 0) then (if t =? 0 then znth 0 (vv v) 0 else cell (rm r) a b) else cell (rm r) a b).
  { destruct (t =? 0).
    - rewrite (aget_ok 0) by lia. cbn [bind]. rewrite assign_ok by assumption. cbn [bind].
      apply (mset_ok (nrows r) (ncols r)); try (assumption || lia).
    - exists (rm r). split; [reflexivity|]. split; [assumption|]. intros. destruct (_ && _); reflexivity. }
  destruct HM as (m1 & E1 & M1' & C1). rewrite E1. cbn [bind]. clear E1.
  run_fill_row (nrows r) (ncols r) row 0 (fun b => f (znth 0 R b) (znth 0 (vv v) b)); try (assumption || lia).
  { intros j m' Hj Mm' Hcell. rewrite Z.add_0_r in *.
    rewrite (mget_ok (nrows r) (ncols r)) by (assumption || lia). cbn [bind]. rewrite (aget_ok 0) by lia. cbn [bind].
    rewrite Hcell, C1 by lia. replace (j =? 0) with false by lia. rewrite andb_false_r, HcR by lia.
    rewrite Hop by lia. reflexivity. }
  f_equal.
  assert (HtR : zlength (tl R) = ncols r - 1).
  { destruct R; [rewrite zlength_nil in Hrl; lia|]. rewrite zlength_cons in Hrl. cbn [tl]. lia. }
  assert (HtV : zlength (tl (vv v)) = ncols r - 1).
  { destruct (vv v); [rewrite zlength_nil in Hs; lia|]. rewrite zlength_cons in Hs. cbn [tl]. lia. }
  assert (Htl : forall l k, 0 <= k -> znth 0 (tl l) k = znth 0 l (k + 1)).
  { intros l k Hk. destruct l; cbn [tl].
    - unfold znth. destruct (Z.to_nat k), (Z.to_nat (k + 1)); reflexivity.
    - rewrite znth_cons by lia. bsplit. f_equal. lia. }
  apply with_m_rows.
  - assumption.
  - rewrite replace_at_length; [apply rows_length; assumption|lia|].
    rewrite rows_length by assumption. rewrite zlength_one. lia.
  - apply replace_at_Forall; [|apply rows_width; assumption]. constructor; [|constructor].
    rewrite zlength_cons, zip_length; lia.
  - intros i j Hi Hj. rewrite Hm by lia.
    rewrite cell_replace_at by (rewrite ?rows_length, ?zlength_one by assumption; lia).
    rewrite zlength_one. rewrite C1 by lia. rewrite !Z.add_0_r, ?Z.sub_0_r.
    destruct (Z.eqb_spec i row) as [->|Hne].
    + destruct (Z.leb_spec row row), (Z.ltb_spec row (row + 1)); try lia. cbn [andb]. rewrite Z.sub_diag.
      match goal with |- _ = cell [?x] 0 j => change (cell [x] 0 j) with (znth 0 x j) end.
      rewrite znth_cons by lia. destruct (Z.eqb_spec j 0) as [->|Hj0].
      * cbn [andb]. destruct (Z.leb_spec 1 0); [lia|]. cbn [andb]. rewrite HcR by lia. reflexivity.
      * destruct (Z.leb_spec 1 j), (Z.ltb_spec j (vsize v)); try lia. cbn [andb].
        rewrite zip_nth by lia. rewrite !Htl by lia. replace (j - 1 + 1) with j by lia; reflexivity.
    + replace ((row <=? i) && (i <? row + 1)) with false by lia. cbn [andb]. apply cell_rows; assumption.
Qed.

(** ** Swap *)
Definition swap_at {A} (d : A) (i j : Z) (l : list A) : list A :=
  list_set (Z.to_nat i) (znth d l j) (list_set (Z.to_nat j) (znth d l i) l).

Lemma swap_ok' r c1 c2 : wf_rel cfg r -> 0 <= c1 < nrows r -> 0 <= c2 < nrows r ->
  osl_relation_swap_constraints r c1 c2 = Ok (with_rows r (ncols r) (swap_at [] c1 c2 (rows r))).
Proof.
  intros W H1 H2. unfold osl_relation_swap_constraints.
  pose proof (wf_mat r W) as M1. pose proof (wf_nn r W). pose proof (wf_supp r W) as Hp.
  pose proof (rows_length r W) as Hl.
  assert (Hsw : forall k, 0 <= k -> znth [] (swap_at [] c1 c2 (rows r)) k =
     if k =? c1 then znth [] (rows r) c2 else if k =? c2 then znth [] (rows r) c1 else znth [] (rows r) k).
  { intros k Hk. unfold swap_at. rewrite !znth_list_set by (rewrite ?zlength_list_set; lia). reflexivity. }
  assert (Hsl : zlength (swap_at [] c1 c2 (rows r)) = nrows r) by (unfold swap_at; rewrite !zlength_list_set; lia).
  destruct (Z.eqb_spec c1 c2).
  { f_equal. rewrite <- (with_rows_id r W) at 1. f_equal. apply (list_ext []); [lia|].
    intros i Hi. rewrite Hsw by lia. bsplit; subst; reflexivity. }
  replace ((nrows r <=? c1) || (c1 <? 0) || (nrows r <=? c2) || (c2 <? 0)) with false by lia.
  match goal with |- context[cfor 0 (ncols r) ?body (rm r)] =>
    destruct (cfor_inv (fun n m => mat (nrows r) (ncols r) m /\
      forall a b, 0 <= a -> 0 <= b -> cell m a b =
        if (b <? n) && (a =? c1) then cell (rm r) c2 b
        else if (b <? n) && (a =? c2) then cell (rm r) c1 b else cell (rm r) a b) 0 (ncols r) body (rm r))
      as (m & E & M & C) end.
  - lia.
  - split; [assumption|]. intros a b Ha Hb. bsplit; reflexivity.
  - intros i m Hi (M & C).
    rewrite !(mget_ok (nrows r) (ncols r)) by (assumption || lia). cbn [bind].
    rewrite swap_ok by assumption. cbn [bind].
    destruct (mset_ok (nrows r) (ncols r) m c1 i (cell m c2 i) M) as (m1 & E1 & M1' & C1); try lia.
    rewrite E1. cbn [bind].
    destruct (mset_ok (nrows r) (ncols r) m1 c2 i (cell m c1 i) M1') as (m2 & E2 & M2' & C2); try lia.
    rewrite E2. eexists. split; [reflexivity|]. split; [assumption|].
    intros a b Ha Hb. rewrite C2, C1, !C by lia.
    destruct (Z.eqb_spec a c1), (Z.eqb_spec a c2), (Z.eqb_spec b i), (Z.ltb_spec b i), (Z.ltb_spec b (i + 1)),
      (Z.ltb_spec i i), (Z.eqb_spec c1 c2), (Z.eqb_spec c2 c1), (Z.eqb_spec c1 c1), (Z.eqb_spec c2 c2);
      cbn [andb]; try lia; subst; reflexivity.
  - rewrite E. cbn [bind]. f_equal. apply with_m_rows; [assumption|assumption| |].
    + unfold swap_at. apply list_set_Forall; [apply list_set_Forall|]; try (apply row_len; assumption).
      apply rows_width; assumption.
    + intros i j Hi Hj. rewrite C by lia. unfold cell at 4. rewrite Hsw by lia.
      destruct (Z.ltb_spec j (ncols r)); [|lia]. cbn [andb].
      destruct (Z.eqb_spec i c1), (Z.eqb_spec i c2); subst; rewrite ?cell_rows by assumption; reflexivity.
Qed.

Lemma swap_err r c1 c2 : c1 <> c2 -> (c1 < 0 \/ nrows r <= c1 \/ c2 < 0 \/ nrows r <= c2) ->
  osl_relation_swap_constraints r c1 c2 = Err.
Proof. intros Hn H. unfold osl_relation_swap_constraints. bsplit; reflexivity. Qed.

(** ** Concatenation *)
Definition undef_rel (p c : Z) (rs : list (list Z)) : relation :=
  mkrel (-1) p (zlength rs) c (-1) (-1) (-1) (-1) (if c =? 0 then [] else rs).

Lemma concat_constraints_ok p1 n1 p2 n2 : wf_rel cfg p1 -> wf_rel cfg p2 ->
  rprec p1 = rprec p2 -> ncols p1 = ncols p2 ->
  osl_relation_concat_constraints (p1 :: n1) (p2 :: n2) =
    Ok [undef_rel (rprec p1) (ncols p1) (rows p1 ++ rows p2)].
Proof.
  intros W1 W2 Ep Ec. unfold osl_relation_concat_constraints.
  pose proof (wf_mat p1 W1) as M1. pose proof (wf_mat p2 W2) as M2.
  pose proof (wf_nn p1 W1). pose proof (wf_nn p2 W2). pose proof (wf_supp p1 W1) as Hp.
  destruct (Z.eqb_spec (ncols p1) (ncols p2)); [|contradiction]. cbn [negb].
  destruct (pmalloc_ok (rprec p1) (nrows p1 + nrows p2) (ncols p1)) as (m0 & E0 & M0 & C0); try (assumption || lia).
  rewrite E0. cbn [bind].
  edestruct (replace_constraints_ok (mkrel (-1) (rprec p1) (nrows p1 + nrows p2) (ncols p1) (-1) (-1) (-1) (-1) m0)
     p1 0) as (m3 & E3 & M3 & C3); fields; try (assumption || reflexivity || lia).
  rewrite E3. cbn [bind]. unfold with_m at 1. fields.
  edestruct (replace_constraints_ok (mkrel (-1) (rprec p1) (nrows p1 + nrows p2) (ncols p1) (-1) (-1) (-1) (-1) m3)
     p2 (nrows p1)) as (m4 & E4 & M4 & C4); fields; try (assumption || reflexivity || lia).
  rewrite E4. cbn [bind]. do 2 f_equal.
  change (undef_rel (rprec p1) (ncols p1) (rows p1 ++ rows p2)) with
    (with_rows (mkrel (-1) (rprec p1) (nrows p1 + nrows p2) (ncols p1) (-1) (-1) (-1) (-1) m3) (ncols p1) (rows p1 ++ rows p2)).
  apply with_m_rows.
  - assumption.
  - rewrite zlength_app, !rows_length by assumption. reflexivity.
  - apply Forall_app. split; [|rewrite Ec]; apply rows_width; assumption.
  - intros i j Hi Hj. rewrite C4, C3 by lia. unfold cell at 4. rewrite znth_app, rows_length by (assumption || lia).
    bsplit; rewrite cell_rows by (assumption || lia); unfold cell; f_equal; f_equal; lia.
Qed.

(** ** Equality *)
Lemma part_equal_ok r1 r2 : wf_rel cfg r1 -> wf_rel cfg r2 ->
  exists b, osl_relation_part_equal r1 r2 = Ok b /\ (b = true <-> r1 = r2).
Proof.
  intros W1 W2. unfold osl_relation_part_equal.
  pose proof (wf_mat r1 W1) as M1. pose proof (wf_mat r2 W2) as M2. pose proof (wf_supp r1 W1) as Hp.
  match goal with |- context[if ?c then _ else _] => destruct c eqn:Ed end.
  { exists false. split; [reflexivity|]. split; [discriminate|]. intros ->.
    rewrite !Z.eqb_refl in Ed. discriminate. }
  assert (Hatt : rtype r1 = rtype r2 /\ rprec r1 = rprec r2 /\ nrows r1 = nrows r2 /\ ncols r1 = ncols r2 /\
     nout r1 = nout r2 /\ nin r1 = nin r2 /\ nloc r1 = nloc r2 /\ npar r1 = npar r2) by lia.
  clear Ed. destruct Hatt as (E1 & E2 & E3 & E4 & E5 & E6 & E7 & E8). rewrite <- E3, <- E4 in M2.
  set (P := fun i => forallb (fun j => cell (rm r1) i (Z.of_nat j) =? cell (rm r2) i (Z.of_nat j))
                       (seq 0 (Z.to_nat (ncols r1)))).
  assert (HP : forall i, P i = true <-> forall j, 0 <= j < ncols r1 -> cell (rm r1) i j = cell (rm r2) i j).
  { intros i. unfold P. rewrite forallb_forall. split.
    - intros H j Hj. specialize (H (Z.to_nat j)). rewrite in_seq in H. rewrite Z2Nat.id in H by lia. lia.
    - intros H n Hn. apply in_seq in Hn. apply Z.eqb_eq. apply H. lia. }
  match goal with |- context[cforall 0 (nrows r1) ?c] =>
    destruct (cforall_dec 0 (nrows r1) c P) as (b & E & Hb) end.
  - intros i Hi.
    match goal with |- context[cforall 0 (ncols r1) ?c] =>
      destruct (cforall_dec 0 (ncols r1) c (fun j => cell (rm r1) i j =? cell (rm r2) i j)) as (b & E & Hb) end.
    + intros j Hj. rewrite !(mget_ok (nrows r1) (ncols r1)) by assumption. cbn [bind]. rewrite ne_ok by assumption.
      cbn [bind]. rewrite negb_involutive. reflexivity.
    + rewrite E. f_equal. apply eq_true_iff_eq. rewrite Hb, HP. split; intros H j Hj; specialize (H j Hj); lia.
  - exists b. split; [exact E|]. rewrite Hb. split.
    + intros H. destruct r1, r2; fields. f_equal; try assumption.
      apply (mat_ext nrows ncols); [assumption|assumption|]. intros i j Hi Hj. apply HP; auto.
    + intros -> i Hi. apply HP. reflexivity.
Qed.

Lemma equal_ok u1 u2 : wf_union cfg u1 -> wf_union cfg u2 ->
  exists b, osl_relation_equal u1 u2 = Ok b /\ (b = true <-> u1 = u2).
Proof.
  intros W1. revert u2. induction W1 as [|r1 u1 H1 W1 IH]; intros u2 W2.
  - destruct u2; [exists true; cbn; tauto|]. exists false. cbn. split; [reflexivity|]. split; discriminate.
  - destruct u2 as [|r2 u2]; [exists false; cbn; split; [reflexivity|]; split; discriminate|].
    destruct (part_equal_ok r1 r2 H1 (Forall_inv W2)) as (b & E & Hb). cbn. rewrite E. cbn [bind].
    destruct b.
    + destruct (IH u2 (Forall_inv_tail W2)) as (b' & E' & Hb'). exists b'. split; [exact E'|].
      rewrite Hb'. assert (r1 = r2) by tauto. subst. split; congruence.
    + exists false. split; [reflexivity|]. split; [discriminate|]. intros H. inversion H; subst.
      apply Hb. reflexivity.
Qed.

End RELATIONPROOFS2.
