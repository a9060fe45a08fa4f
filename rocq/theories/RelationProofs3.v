(** * Denotation lemmas; extension of scatterings; precision of relations *)
From Coq Require Import ZifyBool ZifyNat.
From Verif Require Import Base IntModel VectorModel RelationModel Spec RelSpec LoopLemmas IntProofs VectorProofs
  RelationProofs RelationProofs2.

(** ** Affine expressions *)
Fixpoint dotp (a x : list Z) : Z :=
  match a, x with u :: a', v :: x' => u * v + dotp a' x' | _, _ => 0 end.

Lemma affine_app a b x y : length a = length x ->
  affine (a ++ b) (x ++ y) = dotp a x + affine b y.
Proof.
  revert x. induction a as [|u a IH]; intros [|v x] H; cbn in H; try discriminate; [cbn; lia|].
  change (affine ((u :: a) ++ b) ((v :: x) ++ y)) with
    (match (u :: a ++ b), (v :: x ++ y) with [c], [] => c | a' :: co, v' :: x' => a' * v' + affine co x' | _, _ => 0 end).
  cbn [dotp]. specialize (IH x ltac:(lia)).
  destruct (a ++ b) eqn:E; rewrite IH; lia.
Qed.

Lemma dotp_zeros n x : dotp (repeat 0 n) x = 0.
Proof. revert x. induction n as [|n IH]; intros [|v x]; cbn; auto. Qed.

Lemma dotp_zero_r a n : dotp a (repeat 0 n) = 0.
Proof. revert n. induction a as [|v a IH]; intros [|n]; cbn; auto. rewrite IH. lia. Qed.

Lemma affine_insert_zeros a b x z y : length a = length x ->
  affine (a ++ repeat 0 (length z) ++ b) (x ++ z ++ y) = affine (a ++ b) (x ++ y).
Proof.
  intros H. rewrite !affine_app; rewrite ?repeat_length; auto. rewrite dotp_zeros. lia.
Qed.

Lemma affine_last a c x : length a = length x -> affine (a ++ [c]) x = dotp a x + c.
Proof. intros H. pose proof (affine_app a [c] x [] H) as E. rewrite app_nil_r in E. exact E. Qed.

Lemma dotp_app a b x y : length a = length x -> dotp (a ++ b) (x ++ y) = dotp a x + dotp b y.
Proof.
  revert x. induction a as [|u a IH]; intros [|v x] H; cbn in H; try discriminate; [reflexivity|].
  cbn. rewrite IH by lia. lia.
Qed.

Lemma affine_cons2 u v a w x : affine (u :: v :: a) (w :: x) = u * w + affine (v :: a) x.
Proof. reflexivity. Qed.

Lemma affine_zip f a b x k : (forall u v, f u v = u + k * v) -> length a = length b -> length a = S (length x) ->
  affine (zip_with f a b) x = affine a x + k * affine b x.
Proof.
  intros Hf. revert b x. induction a as [|u a IH]; intros [|v b] x H1 H2; cbn in H1, H2; try lia.
  destruct x as [|w x].
  - destruct a; [|cbn in *; lia]. destruct b; [|cbn in *; lia]. cbn. rewrite Hf. lia.
  - destruct a as [|u2 a]; [cbn in *; lia|]. destruct b as [|v2 b]; [cbn in *; lia|].
    specialize (IH (v2 :: b) x ltac:(cbn in *; lia) ltac:(cbn in *; lia)).
    change (zip_with f (u2 :: a) (v2 :: b)) with (f u2 v2 :: zip_with f a b) in IH.
    change (zip_with f (u :: u2 :: a) (v :: v2 :: b)) with (f u v :: f u2 v2 :: zip_with f a b).
    rewrite !affine_cons2.
    rewrite IH, Hf. lia.
Qed.

Section REL3.
Context {cfg : config}.
Hypothesis Hcfg : config_ok cfg.

Lemma in_part_with_rows r c rs x : 0 <= c -> Forall (fun row => zlength row = c) rs ->
  (in_part (with_rows r c rs) x <-> zlength x = c - 2 /\ Forall (satisfies x) rs).
Proof. intros H1 H2. unfold in_part. rewrite rows_with_rows by assumption. fields. reflexivity. Qed.

Lemma Forall_insert_at {A} (P : A -> Prop) n new l :
  Forall P (insert_at n new l) <-> Forall P new /\ Forall P l.
Proof.
  unfold insert_at. rewrite !Forall_app. rewrite <- (firstn_skipn (Z.to_nat n) l) at 3.
  rewrite Forall_app. tauto.
Qed.

Lemma Forall_list_set {A} (P : A -> Prop) (d : A) n v l : 0 <= n < zlength l ->
  Forall P (list_set (Z.to_nat n) v l) <-> (P v /\ forall i, 0 <= i < zlength l -> i <> n -> P (znth d l i)).
Proof.
  intros Hn. rewrite (Forall_znth P d), zlength_list_set. split.
  - intros H. split.
    + specialize (H n Hn). rewrite znth_list_set in H by lia. rewrite Z.eqb_refl in H. assumption.
    + intros i Hi Hne. specialize (H i Hi). rewrite znth_list_set in H by lia.
      destruct (Z.eqb_spec i n); [lia|assumption].
  - intros [Hv H] i Hi. rewrite znth_list_set by lia. destruct (Z.eqb_spec i n); [assumption|]. apply H; assumption.
Qed.

Lemma Forall_swap_at {A} (P : A -> Prop) d i j (l : list A) : 0 <= i < zlength l -> 0 <= j < zlength l ->
  Forall P (swap_at d i j l) <-> Forall P l.
Proof.
  intros Hi Hj. unfold swap_at. rewrite (Forall_znth P d l), (Forall_znth P d), !zlength_list_set.
  split; intros H k Hk.
  - destruct (Z.eq_dec k i); [|destruct (Z.eq_dec k j)].
    + subst. specialize (H j Hj). rewrite !znth_list_set in H by (rewrite ?zlength_list_set; lia).
      rewrite Z.eqb_refl in H. destruct (Z.eqb_spec j i); [subst|]; assumption.
    + subst. specialize (H i Hi). rewrite !znth_list_set in H by (rewrite ?zlength_list_set; lia).
      rewrite Z.eqb_refl in H. assumption.
    + specialize (H k Hk). rewrite !znth_list_set in H by (rewrite ?zlength_list_set; lia).
      destruct (Z.eqb_spec k i), (Z.eqb_spec k j); try lia. assumption.
  - rewrite !znth_list_set by (rewrite ?zlength_list_set; lia).
    destruct (Z.eqb_spec k i), (Z.eqb_spec k j); apply H; assumption.
Qed.

(** Inserting zero columns inside the coefficients *)
Lemma satisfies_insert_zeros row x y z c :
  zlength row = zlength x + zlength y + 2 -> c = 1 + zlength x ->
  (satisfies (x ++ z ++ y) (insert_at c (repeat 0 (length z)) row) <-> satisfies (x ++ y) row).
Proof.
  intros Hl ->. destruct row as [|t row]; [pose proof (zlength_nonneg x); pose proof (zlength_nonneg y);
     rewrite zlength_nil in Hl; lia|].
  rewrite zlength_cons in Hl. unfold zlength in Hl |- *.
  unfold insert_at. replace (Z.to_nat (1 + Z.of_nat (length x))) with (S (length x)) by lia.
  cbn [firstn skipn app satisfies].
  rewrite affine_insert_zeros by (rewrite firstn_length; lia). rewrite firstn_skipn. reflexivity.
Qed.

Lemma Forall_map_iff {A B} (f : A -> B) (P : B -> Prop) (Q : A -> Prop) (R : A -> Prop) l :
  Forall R l -> (forall a, R a -> (P (f a) <-> Q a)) -> (Forall P (map f l) <-> Forall Q l).
Proof.
  intros HR H. induction HR as [|a l Ha _ IH]; cbn; [split; constructor|].
  rewrite !Forall_cons_iff, IH, H by assumption. reflexivity.
Qed.

(** ** Extension of the output dimensions *)
(* row number [i] (of [k]) added by the extension of a part with [o] outputs and [c] columns *)
Definition zero_output_row (o c k i : Z) : list Z :=
  repeat 0 (Z.to_nat (1 + o + i)) ++ [-1] ++ repeat 0 (Z.to_nat (c - 1 - o + (k - 1 - i))).

Definition extended_rows (r : relation) (k : Z) : list (list Z) :=
  map (insert_at (nout r + 1) (repeat 0 (Z.to_nat k))) (rows r) ++
  map (fun i => zero_output_row (nout r) (ncols r) k (Z.of_nat i)) (seq 0 (Z.to_nat k)).

Lemma zero_output_row_nth o c k i j : 0 <= o -> o + 1 <= c -> 0 <= i < k -> 0 <= j ->
  znth 0 (zero_output_row o c k i) j = if j =? 1 + o + i then -1 else 0.
Proof.
  intros. unfold zero_output_row. rewrite znth_app, zlength_repeat by lia.
  destruct (Z.ltb_spec j (Z.of_nat (Z.to_nat (1 + o + i)))).
  - rewrite znth_repeat0. bsplit; reflexivity.
  - rewrite znth_app, zlength_one by lia. rewrite znth_repeat0. bsplit; try reflexivity.
    replace (j - Z.of_nat (Z.to_nat (1 + o + i))) with 0 by lia. reflexivity.
Qed.
Lemma zero_output_row_length o c k i : 0 <= o -> o + 1 <= c -> 0 <= i < k -> zlength (zero_output_row o c k i) = c + k.
Proof. intros. unfold zero_output_row. rewrite !zlength_app, !zlength_repeat, zlength_one. lia. Qed.

Lemma extended_rows_length r k : wf_rel cfg r -> 0 <= k -> zlength (extended_rows r k) = nrows r + k.
Proof.
  intros W Hk. unfold extended_rows. rewrite zlength_app, !zlength_map, rows_length by assumption.
  unfold zlength. rewrite seq_length. lia.
Qed.

Lemma extended_rows_width r k : wf_rel cfg r -> 0 <= k -> 0 <= nout r -> nout r + 1 <= ncols r ->
  Forall (fun row => zlength row = ncols r + k) (extended_rows r k).
Proof.
  intros W Hk Ho Hc. unfold extended_rows. apply Forall_app. split.
  - eapply Forall_rows_map; [|apply rows_width; eassumption]. intros row El.
    rewrite insert_at_length by lia. rewrite zlength_repeat. lia.
  - apply Forall_forall. intros row Hr. apply in_map_iff in Hr as (i & <- & Hi). apply in_seq in Hi.
    apply zero_output_row_length; lia.
Qed.

Lemma extend_part_ok r dim : wf_rel cfg r -> 0 <= nout r -> nout r + 1 <= ncols r -> nout r <= dim ->
  extend_part (rprec r) r dim =
    Ok (with_attrs (with_rows r (ncols r + (dim - nout r)) (extended_rows r (dim - nout r)))
          dim (nin r) (nloc r) (npar r)).
Proof.
  intros W Ho Hc Hd. unfold extend_part.
  pose proof (wf_mat r W) as M1. pose proof (wf_nn r W). pose proof (wf_supp r W) as Hp.
  destruct (Z.ltb_spec dim (nout r)); [lia|].
  set (k := dim - nout r) in *. assert (Hk : 0 <= k) by (unfold k; lia).
  destruct (pmalloc_ok (rprec r) (nrows r + k) (ncols r + k)) as (m0 & E0 & M0 & C0); try (assumption || lia).
  rewrite E0. cbn [bind]. fields.
  (* the copied rows *)
  run_fill_rows (nrows r + k) (ncols r + k) 0
    (fun i b => if b <? nout r + 1 then cell (rm r) i b else if b <? nout r + 1 + k then 0
                else cell (rm r) i (b - k)).
  { assumption. } { lia. }
  { intros i m' Hi M' Hrow.
    run_fill_row (nrows r + k) (ncols r + k) i 0 (fun b => cell (rm r) i b); try (assumption || lia).
    { intros. rewrite (copy_cell_ok _ _ _ _ _ _ _ (nrows r) (ncols r)) by (assumption || lia). f_equal; lia. }
    run_fill_row (nrows r + k) (ncols r + k) i 0 (fun b => cell (rm r) i (b - k)); try (assumption || lia).
    { intros. rewrite (copy_cell_ok _ _ _ _ _ _ _ (nrows r) (ncols r)) by (assumption || lia). f_equal; lia. }
    eexists. split; [reflexivity|]. split; [assumption|]. intros a b Ha Hb. rewrite Hm0, Hm by lia.
    rewrite !Z.add_0_r, ?Z.sub_0_r in *.
    destruct (Z.eqb_spec a i) as [->|]; cbn [andb]; [|reflexivity].
    bsplit; try reflexivity; rewrite Hrow by lia; apply C0; lia. }
  (* the added rows *)
  run_fill_rows (nrows r + k) (ncols r + k) 0
    (fun i b => if i - nrows r =? b - nout r - 1 then -1 else 0).
  { assumption. } { lia. }
  { intros i m' Hi M' Hrow. rewrite Z.add_0_r in *.
    assert (Hz : forall b, 0 <= b < ncols r + k -> cell m' i b = 0).
    { intros b Hb. rewrite Hrow, Hm by lia. bsplit; try reflexivity; apply C0; lia. }
    match goal with |- context[cfor 0 (ncols r + k) ?body m'] =>
      destruct (cfor_inv (fun n m => mat (nrows r + k) (ncols r + k) m /\
        forall a b, 0 <= a -> 0 <= b -> cell m a b =
          if (a =? i) && (b <? n) && (i - nrows r =? b - nout r - 1) then -1 else cell m' a b)
          0 (ncols r + k) body m') as (m2 & E2 & M2 & C2) end.
    - lia.
    - split; [assumption|]. intros a b Ha Hb. bsplit; reflexivity.
    - intros j m3 Hj (M3 & C3). destruct (Z.eqb_spec (i - nrows r) (j - nout r - 1)) as [Ej|Ej].
      + rewrite set_si_ok by assumption. cbn [bind].
        destruct (mset_ok (nrows r + k) (ncols r + k) m3 i j (-1) M3) as (m4 & E4 & M4 & C4); try lia.
        exists m4. split; [exact E4|]. split; [assumption|]. intros a b Ha Hb. rewrite C4, C3 by lia.
        bsplit; reflexivity.
      + exists m3. split; [reflexivity|]. split; [assumption|]. intros a b Ha Hb. rewrite C3 by lia.
        bsplit; reflexivity.
    - exists m2. split; [exact E2|]. split; [assumption|]. intros a b Ha Hb. rewrite C2 by lia.
      destruct (Z.eqb_spec a i) as [->|]; cbn [andb]; [|reflexivity].
      destruct (Z.ltb_spec b (ncols r + k)); [|lia]. cbn [andb]. bsplit; try reflexivity; apply Hz; lia. }
  pose proof (extended_rows_length r k W Hk) as HL.
  assert (Hfin : with_m r (nrows r + k) (ncols r + k) m1 = with_rows r (ncols r + k) (extended_rows r k)).
  { apply with_m_rows; [assumption|assumption|apply extended_rows_width; assumption|].
    intros i j Hi Hj. rewrite Hm0, Hm by lia. rewrite !Z.add_0_r, ?Z.sub_0_r.
    unfold extended_rows, cell at 4. rewrite znth_app by lia. rewrite zlength_map, rows_length by assumption.
    destruct (Z.ltb_spec i (nrows r)).
    - rewrite (znth_map []) by (rewrite rows_length by assumption; lia).
      rewrite insert_at_nth by (rewrite ?row_len by (assumption || lia); lia). rewrite zlength_repeat, znth_repeat0.
      replace ((nrows r <=? i) && (i <? nrows r + k)) with false by lia.
      replace ((0 <=? i) && true) with true by lia.
      replace (Z.of_nat (Z.to_nat k)) with k by lia.
      destruct (Z.ltb_spec j (nout r + 1)); [|destruct (Z.ltb_spec j (nout r + 1 + k))];
        try (apply (cell_rows r); [assumption|lia]); reflexivity.
    - rewrite (znth_map O) by (unfold zlength; rewrite seq_length; lia).
      unfold znth at 2. rewrite seq_nth by lia.
      rewrite zero_output_row_nth by lia.
      replace ((nrows r <=? i) && (i <? nrows r + k)) with true by lia.
      bsplit; reflexivity. }
  unfold with_m in Hfin. injection Hfin as H1 H2. f_equal. unfold with_attrs, with_rows. fields.
  rewrite <- H1, H2. f_equal. lia.
Qed.

Lemma extend_part_err p r dim : dim < nout r -> extend_part p r dim = Err.
Proof. intros H. unfold extend_part. bsplit; reflexivity. Qed.

Lemma affine_zero_output_row o c k i x z y : o = zlength x -> k = zlength z -> c = zlength x + zlength y + 2 ->
  0 <= i < k -> satisfies (x ++ z ++ y) (zero_output_row o c k i) <-> znth 0 z i = 0.
Proof.
  intros -> -> -> Hi. unfold zero_output_row.
  replace (Z.to_nat (1 + zlength x + i)) with (S (length x + Z.to_nat i)) by (unfold zlength in *; lia).
  cbn [repeat app satisfies]. change (0 =? 0) with true. cbn iota.
  destruct (nth_split z 0 (n := Z.to_nat i)) as (z1 & z2 & Ez & Hz1); [unfold zlength in Hi; lia|].
  replace (Z.to_nat (zlength x + zlength y + 2 - 1 - zlength x + (zlength z - 1 - i)))
    with (S (length z2 + length y)).
  2:{ rewrite Ez. unfold zlength in *. rewrite app_length in *. cbn [length] in *. lia. }
  unfold znth. remember (nth (Z.to_nat i) z 0) as zi eqn:Ezi. clear Ezi Hi. subst z.
  replace (x ++ (z1 ++ zi :: z2) ++ y) with ((x ++ z1) ++ [zi] ++ (z2 ++ y)) by (rewrite <- !app_assoc; reflexivity).
  change (-1 :: repeat 0 (S (length z2 + length y))) with ([-1] ++ repeat 0 (S (length z2 + length y))).
  rewrite affine_app by (rewrite repeat_length, app_length; lia).
  rewrite dotp_zeros. rewrite affine_app by reflexivity. cbn [dotp].
  replace (S (length z2 + length y)) with (length (z2 ++ y) + 1)%nat by (rewrite app_length; lia).
  rewrite repeat_app. cbn [repeat]. rewrite affine_last by (rewrite repeat_length; reflexivity).
  rewrite dotp_zeros. lia.
Qed.

Lemma extended_sem r k x z y : wf_rel cfg r -> 0 <= nout r -> nout r + 1 <= ncols r ->
  nout r = zlength x -> k = zlength z -> ncols r = zlength x + zlength y + 2 ->
  Forall (satisfies (x ++ z ++ y)) (extended_rows r k) <->
  Forall (fun v => v = 0) z /\ Forall (satisfies (x ++ y)) (rows r).
Proof.
  intros W Ho Hc Ex Ez Ey. unfold extended_rows. rewrite Forall_app.
  rewrite (Forall_map_iff (insert_at (nout r + 1) (repeat 0 (Z.to_nat k))) _ (satisfies (x ++ y)) _ _ (rows_width r W)).
  2:{ intros row El. subst k. replace (Z.to_nat (zlength z)) with (length z) by (unfold zlength; lia).
      apply satisfies_insert_zeros; lia. }
  enough (H : Forall (satisfies (x ++ z ++ y))
      (map (fun i => zero_output_row (nout r) (ncols r) k (Z.of_nat i)) (seq 0 (Z.to_nat k)))
      <-> Forall (fun v => v = 0) z) by tauto.
  rewrite (Forall_znth _ 0 z). rewrite Forall_forall. split.
  - intros H i Hi. apply (affine_zero_output_row (nout r) (ncols r) k i x z y); auto; try lia.
    apply H. apply in_map_iff. exists (Z.to_nat i). rewrite Z2Nat.id by lia. split; [reflexivity|].
    apply in_seq. lia.
  - intros H row Hr. apply in_map_iff in Hr as (i & <- & Hi). apply in_seq in Hi.
    apply affine_zero_output_row; auto; try lia. apply H. lia.
Qed.

(** ** Precision *)
Lemma set_precision_part_ok p r : wf_rel cfg r -> supported cfg p ->
  Forall (Forall c_int) (rows r) ->
  set_precision_part p r = Ok (mkrel (rtype r) p (nrows r) (ncols r) (nout r) (nin r) (nloc r) (npar r) (rm r)).
Proof.
  intros W Hq Hi. unfold set_precision_part.
  pose proof (wf_mat r W) as M1. pose proof (wf_nn r W). pose proof (wf_supp r W) as Hp.
  destruct (Z.eqb_spec p (rprec r)) as [->|Hne]; cbn [negb]; [destruct r; reflexivity|].
  run_fill_rows (nrows r) (ncols r) 0 (fun i b => cell (rm r) i b).
  - assumption.
  - lia.
  - intros i m' Hii M' Hrow. rewrite Z.add_0_r in *.
    run_fill_row (nrows r) (ncols r) i 0 (fun b => cell (rm r) i b); try (assumption || lia).
    { intros j m2 Hj M2 Hc. rewrite Z.add_0_r in *. rewrite (mget_ok (nrows r) (ncols r)) by (assumption || lia).
      cbn [bind]. rewrite Hc, Hrow by lia. rewrite set_precision_int; try assumption; [reflexivity|].
      rewrite cell_rows by assumption.
      pose proof (Forall_at _ [] _ i Hi ltac:(rewrite rows_length; auto)) as Hri. cbn beta in Hri.
      apply (Forall_at _ 0 _ j Hri). rewrite row_len; auto. }
    eexists. split; [reflexivity|]. split; [assumption|]. intros a b Ha Hb. rewrite Hm by lia.
    rewrite Z.sub_0_r. bsplit; reflexivity.
  - unfold with_prec. do 2 f_equal. apply (mat_ext (nrows r) (ncols r)); [assumption|assumption|].
    intros i j Hii Hj. rewrite Hm by lia. rewrite Z.sub_0_r. bsplit; reflexivity.
Qed.

End REL3.
