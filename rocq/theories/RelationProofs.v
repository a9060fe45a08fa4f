(** * Proofs about the matrix operations of relation.c *)
From Coq Require Import ZifyBool ZifyNat.
From Verif Require Import Base IntModel VectorModel RelationModel Spec RelSpec LoopLemmas IntProofs VectorProofs.

Ltac fields := cbn [rtype rprec nrows ncols nout nin nloc npar rm vprec vsize vv with_m with_rows with_attrs with_type with_prec] in *.

(** ** List editing *)
Section EDIT.
Context {A : Type} (d : A).

Lemma insert_at_length n (new l : list A) : 0 <= n <= zlength l ->
  zlength (insert_at n new l) = zlength l + zlength new.
Proof. intros. unfold insert_at. rewrite !zlength_app, zlength_firstn, zlength_skipn by lia. lia. Qed.

Lemma insert_at_nth n (new l : list A) i : 0 <= n <= zlength l -> 0 <= i ->
  znth d (insert_at n new l) i =
    if i <? n then znth d l i else if i <? n + zlength new then znth d new (i - n)
    else znth d l (i - zlength new).
Proof.
  intros Hn Hi. unfold insert_at. pose proof (zlength_nonneg new).
  rewrite znth_app, zlength_firstn by lia. rewrite Z.min_l by lia.
  destruct (Z.ltb_spec i n); [apply znth_firstn; lia|].
  rewrite znth_app by lia. destruct (Z.ltb_spec (i - n) (zlength new)), (Z.ltb_spec i (n + zlength new)); try lia.
  - reflexivity.
  - rewrite znth_skipn by lia. f_equal. lia.
Qed.

Lemma remove_at_length n (l : list A) : 0 <= n < zlength l ->
  zlength (remove_at n l) = zlength l - 1.
Proof.
  intros. unfold remove_at. rewrite zlength_app, zlength_firstn by lia.
  replace (Z.to_nat n + 1)%nat with (Z.to_nat (n + 1)) by lia. rewrite zlength_skipn by lia. lia.
Qed.

Lemma remove_at_nth n (l : list A) i : 0 <= n < zlength l -> 0 <= i ->
  znth d (remove_at n l) i = if i <? n then znth d l i else znth d l (i + 1).
Proof.
  intros Hn Hi. unfold remove_at. replace (Z.to_nat n + 1)%nat with (Z.to_nat (n + 1)) by lia.
  rewrite znth_app, zlength_firstn by lia. rewrite Z.min_l by lia.
  destruct (Z.ltb_spec i n); [apply znth_firstn; lia|].
  rewrite znth_skipn by lia. f_equal. lia.
Qed.

Lemma replace_at_length n (new l : list A) : 0 <= n -> n + zlength new <= zlength l ->
  zlength (replace_at n new l) = zlength l.
Proof.
  intros. unfold replace_at. pose proof (zlength_nonneg new). rewrite !zlength_app, zlength_firstn by lia.
  replace (Z.to_nat n + length new)%nat with (Z.to_nat (n + zlength new)) by (unfold zlength; lia).
  rewrite zlength_skipn by lia. lia.
Qed.

Lemma replace_at_nth n (new l : list A) i : 0 <= n -> n + zlength new <= zlength l -> 0 <= i ->
  znth d (replace_at n new l) i =
    if (n <=? i) && (i <? n + zlength new) then znth d new (i - n) else znth d l i.
Proof.
  intros Hn Hl Hi. unfold replace_at. pose proof (zlength_nonneg new).
  replace (Z.to_nat n + length new)%nat with (Z.to_nat (n + zlength new)) by (unfold zlength; lia).
  rewrite znth_app, zlength_firstn by lia. rewrite Z.min_l by lia.
  destruct (Z.ltb_spec i n), (Z.leb_spec n i); cbn [andb]; try lia; [apply znth_firstn; lia|].
  rewrite znth_app by lia. destruct (Z.ltb_spec (i - n) (zlength new)), (Z.ltb_spec i (n + zlength new)); try lia.
  - reflexivity.
  - rewrite znth_skipn by lia. f_equal. lia.
Qed.

Lemma insert_at_Forall (P : A -> Prop) n new l : Forall P new -> Forall P l -> Forall P (insert_at n new l).
Proof.
  intros Hn Hl. unfold insert_at. rewrite !Forall_app. rewrite <- (firstn_skipn (Z.to_nat n) l), Forall_app in Hl.
  tauto.
Qed.
Lemma remove_at_Forall (P : A -> Prop) n l : Forall P l -> Forall P (remove_at n l).
Proof.
  intros Hl. unfold remove_at. rewrite Forall_app. split.
  - rewrite <- (firstn_skipn (Z.to_nat n) l), Forall_app in Hl. tauto.
  - rewrite <- (firstn_skipn (Z.to_nat n + 1) l), Forall_app in Hl. tauto.
Qed.
Lemma replace_at_Forall (P : A -> Prop) n new l : Forall P new -> Forall P l -> Forall P (replace_at n new l).
Proof.
  intros Hn Hl. unfold replace_at. rewrite !Forall_app. split; [|split; [assumption|]].
  - rewrite <- (firstn_skipn (Z.to_nat n) l), Forall_app in Hl. tauto.
  - rewrite <- (firstn_skipn (Z.to_nat n + length new) l), Forall_app in Hl. tauto.
Qed.
End EDIT.

(** ** Matrices and rows *)
Lemma cell_insert_at n new l i j : 0 <= n <= zlength l -> 0 <= i ->
  cell (insert_at n new l) i j =
    if i <? n then cell l i j else if i <? n + zlength new then cell new (i - n) j
    else cell l (i - zlength new) j.
Proof. intros. unfold cell. rewrite insert_at_nth by assumption. destruct (i <? n), (i <? n + zlength new); reflexivity. Qed.
Lemma cell_remove_at n l i j : 0 <= n < zlength l -> 0 <= i ->
  cell (remove_at n l) i j = if i <? n then cell l i j else cell l (i + 1) j.
Proof. intros. unfold cell. rewrite remove_at_nth by assumption. destruct (i <? n); reflexivity. Qed.
Lemma cell_replace_at n new l i j : 0 <= n -> n + zlength new <= zlength l -> 0 <= i ->
  cell (replace_at n new l) i j =
    if (n <=? i) && (i <? n + zlength new) then cell new (i - n) j else cell l i j.
Proof. intros. unfold cell. rewrite replace_at_nth by assumption. destruct (_ && _); reflexivity. Qed.

Definition mrep (c : Z) (rs : list (list Z)) : list (list Z) := if c =? 0 then [] else rs.

Lemma mat_mrep c rs : 0 <= c -> Forall (fun row => zlength row = c) rs -> mat (zlength rs) c (mrep c rs).
Proof.
  intros Hc Hf. pose proof (zlength_nonneg rs). unfold mrep. destruct (Z.eqb_spec c 0).
  - split; [lia|]. split; [lia|]. split; [auto|lia].
  - split; [lia|]. split; [lia|]. split; [|auto]. intros [H0|H0]; [|lia]. apply zlength_0. assumption.
Qed.

Lemma cell_mrep c rs i j : 0 <= j < c -> cell (mrep c rs) i j = cell rs i j.
Proof. unfold mrep. intros H. destruct (Z.eqb_spec c 0); [lia|reflexivity]. Qed.

Section RELATIONPROOFS.
Context {cfg : config}.
Hypothesis Hcfg : config_ok cfg.

Lemma wf_mat r : wf_rel cfg r -> mat (nrows r) (ncols r) (rm r).
Proof. intros (_ & H1 & H2 & H3 & H4 & _). repeat split; auto; apply H4; auto. Qed.
Lemma wf_supp r : wf_rel cfg r -> supported cfg (rprec r).
Proof. intros (H & _). exact H. Qed.
Lemma wf_nn r : wf_rel cfg r -> 0 <= nrows r /\ 0 <= ncols r.
Proof. intros (_ & H1 & H2 & _). auto. Qed.

Lemma rows_length r : wf_rel cfg r -> zlength (rows r) = nrows r.
Proof.
  intros (_ & Hr & Hc & Hz & Hm & _). unfold rows. destruct (Z.eqb_spec (ncols r) 0).
  - rewrite zlength_repeat. lia.
  - destruct (Z.eq_dec (nrows r) 0) as [E|E].
    + rewrite Hz by auto. rewrite E. reflexivity.
    + apply Hm; lia.
Qed.

Lemma rows_width r : wf_rel cfg r -> Forall (fun row => zlength row = ncols r) (rows r).
Proof.
  intros (_ & Hr & Hc & Hz & Hm & _). unfold rows. destruct (Z.eqb_spec (ncols r) 0) as [E|E].
  - rewrite E. apply Forall_forall. intros x Hx. apply repeat_spec in Hx. subst. reflexivity.
  - destruct (Z.eq_dec (nrows r) 0) as [E'|E'].
    + rewrite Hz by auto. constructor.
    + apply Hm; lia.
Qed.

Lemma rows_rep r : wf_rel cfg r -> Forall (Forall (representable cfg (rprec r))) (rows r).
Proof.
  intros (_ & _ & _ & _ & _ & H). unfold rows. destruct (ncols r =? 0); [|assumption].
  apply Forall_forall. intros x Hx. apply repeat_spec in Hx. subst. constructor.
Qed.

Lemma cell_rows r i j : wf_rel cfg r -> 0 <= j < ncols r -> cell (rm r) i j = cell (rows r) i j.
Proof. intros H Hj. unfold rows. destruct (Z.eqb_spec (ncols r) 0); [lia|reflexivity]. Qed.

Lemma rows_with_rows r c rs : 0 <= c -> Forall (fun row => zlength row = c) rs -> rows (with_rows r c rs) = rs.
Proof.
  intros Hc Hf. unfold rows, with_rows. fields. destruct (Z.eqb_spec c 0); [|reflexivity].
  subst. clear Hc. unfold zlength. rewrite Nat2Z.id. induction Hf as [|x l Hx Hf IH]; [reflexivity|].
  cbn. rewrite IH. f_equal. symmetry. apply zlength_0. assumption.
Qed.

Lemma with_rows_id r : wf_rel cfg r -> with_rows r (ncols r) (rows r) = r.
Proof.
  intros H. pose proof (rows_length r H) as Hl. destruct H as (_ & Hr & Hc & Hz & Hm & _).
  unfold with_rows. rewrite Hl. unfold rows. destruct (Z.eqb_spec (ncols r) 0) as [E|E]; destruct r; fields.
  - subst. rewrite Hz by auto. reflexivity.
  - reflexivity.
Qed.

Lemma wf_with_rows r c rs : supported cfg (rprec r) -> 0 <= c -> Forall (fun row => zlength row = c) rs ->
  Forall (Forall (representable cfg (rprec r))) rs -> wf_rel cfg (with_rows r c rs).
Proof.
  intros Hp Hc Hf Hr. pose proof (mat_mrep c rs Hc Hf) as M. unfold mrep in M.
  unfold with_rows. destruct M as (M1 & M2 & M3 & M4).
  split; [assumption|]. fields. repeat (split; [assumption|]).
  destruct (Z.eqb_spec c 0); [constructor|assumption].
Qed.

(* same attributes, two matrices with the same cells *)
Lemma with_m_rows r R C m rs : mat R C m -> zlength rs = R -> Forall (fun row => zlength row = C) rs ->
  (forall i j, 0 <= i < R -> 0 <= j < C -> cell m i j = cell rs i j) ->
  with_m r R C m = with_rows r C rs.
Proof.
  intros M Hl Hf H. unfold with_m, with_rows. rewrite Hl. f_equal.
  apply (mat_ext R C); [assumption| |].
  - rewrite <- Hl. apply mat_mrep; [destruct M; tauto|assumption].
  - intros i j Hi Hj. rewrite H by assumption. symmetry. apply (cell_mrep C). assumption.
Qed.

(** ** Allocation *)
Lemma pmalloc_ok p R C : supported cfg p -> 0 <= R -> 0 <= C ->
  exists m, osl_relation_pmalloc p R C = Ok (mkrel (-1) p R C (-1) (-1) (-1) (-1) m) /\ mat R C m /\
    (forall i j, 0 <= i < R -> 0 <= j < C -> cell m i j = 0).
Proof.
  intros Hp HR HC. unfold osl_relation_pmalloc.
  assert (Hsup : negb (p =? PRECISION_SP) && negb (p =? PRECISION_DP) && negb (p =? PRECISION_MP) = false)
    by (unfold supported, PRECISION_SP, PRECISION_DP, PRECISION_MP in *; lia).
  rewrite Hsup. destruct (Z.ltb_spec R 0); [lia|]. destruct (Z.ltb_spec C 0); [lia|]. cbn [orb].
  destruct (Z.eqb_spec R 0) as [E|E]; [|destruct (Z.eqb_spec C 0) as [E'|E']]; cbn [orb bind].
  - exists []. split; [reflexivity|]. split; [repeat split; auto; lia|]. intros; lia.
  - exists []. split; [reflexivity|]. split; [repeat split; auto; lia|]. intros; lia.
  - assert (M0 : mat R C (repeat (repeat POISON (Z.to_nat C)) (Z.to_nat R))).
    { split; [lia|]. split; [lia|]. split; [lia|]. intros _ _. rewrite zlength_repeat.
      split; [lia|]. apply Forall_forall. intros x Hx. apply repeat_spec in Hx. subst.
      rewrite zlength_repeat. lia. }
    run_fill_rows R C 0 (fun _ _ : Z => 0).
    + assumption.
    + lia.
    + intros i m' Hi M' _.
      destruct (fill_row R C 0 C i 0 (fun j m => x <- osl_int_init_set_si p 0;; mset m i j x) (fun _ => 0) m')
        as (m2 & E2 & M2 & C2).
      * assumption.
      * lia.
      * lia.
      * intros. rewrite init_set_si_ok by assumption. cbn [bind]. f_equal; lia.
      * exists m2. split; [exact E2|]. split; [exact M2|]. intros a b Ha Hb. rewrite C2 by lia.
        rewrite !Z.add_0_r. destruct (Z.eqb_spec a i); cbn [andb]; [|reflexivity].
        destruct (Z.leb_spec 0 b), (Z.ltb_spec b C); cbn; try lia; reflexivity.
    + exists m. split; [reflexivity|]. split; [assumption|]. intros i j Hi Hj. rewrite Hm by lia.
      destruct (Z.leb_spec (0 + 0) i), (Z.ltb_spec i (R + 0)); cbn; try lia; reflexivity.
Qed.

Lemma pmalloc_err p R C : R < 0 \/ C < 0 -> osl_relation_pmalloc p R C = Err.
Proof.
  intros H. unfold osl_relation_pmalloc. destruct (_ && _); [reflexivity|].
  destruct (Z.ltb_spec R 0), (Z.ltb_spec C 0); try reflexivity. lia.
Qed.

Lemma copy_cell_ok p src si sj dst di dj R C : supported cfg p -> mat R C src ->
  0 <= si < R -> 0 <= sj < C -> copy_cell p src si sj dst di dj = mset dst di dj (cell src si sj).
Proof.
  intros Hp Ms Hi Hj. unfold copy_cell. rewrite (mget_ok R C) by assumption. cbn [bind].
  rewrite assign_ok by assumption. reflexivity.
Qed.

(** ** Copy of a block of rows *)
Lemma copy_rows p src Rs R C lo hi si di (body : Z -> Z -> list (list Z) -> res (list (list Z))) m :
  supported cfg p -> mat R C m -> mat Rs C src -> lo <= hi ->
  (lo < hi -> 0 <= lo + si /\ hi + si <= Rs /\ 0 <= lo + di /\ hi + di <= R) ->
  (forall i j m, body i j m = copy_cell p src (i + si) j m (i + di) j) ->
  exists m', cfor lo hi (fun i m => cfor 0 C (fun j m => body i j m) m) m = Ok m' /\ mat R C m' /\
    forall a b, 0 <= a -> 0 <= b < C -> cell m' a b =
      if (lo + di <=? a) && (a <? hi + di) then cell src (a - di + si) b else cell m a b.
Proof.
  intros Hp M Ms Hle Hr Hb.
  run_fill_rows R C di (fun i b => cell src (i + si) b); try assumption.
  - intros i m' Hi M' _.
    destruct (fill_row R C 0 C (i + di) 0 (fun j m => body i j m) (fun b => cell src (i + si) b) m')
      as (m2 & E2 & M2 & C2).
    + assumption.
    + destruct M; lia.
    + lia.
    + intros. rewrite Hb. rewrite (copy_cell_ok _ _ _ _ _ _ _ Rs C) by (assumption || lia). f_equal. lia.
    + exists m2. split; [exact E2|]. split; [exact M2|]. intros a b Ha Hb'. rewrite C2 by lia.
      destruct (Z.eqb_spec a (i + di)); cbn [andb]; [|reflexivity].
      destruct (Z.leb_spec (0 + 0) b), (Z.ltb_spec b (C + 0)); cbn; try lia. f_equal. lia.
  - exists m0. auto.
Qed.

Lemma replace_constraints_ok r1 r2 row :
  supported cfg (rprec r1) -> mat (nrows r1) (ncols r1) (rm r1) -> mat (nrows r2) (ncols r2) (rm r2) ->
  rprec r1 = rprec r2 -> ncols r1 = ncols r2 -> 0 <= row -> row + nrows r2 <= nrows r1 ->
  exists m, osl_relation_replace_constraints r1 r2 row = Ok (with_m r1 (nrows r1) (ncols r1) m) /\
    mat (nrows r1) (ncols r1) m /\
    forall a b, 0 <= a -> 0 <= b < ncols r1 -> cell m a b =
      if (row <=? a) && (a <? row + nrows r2) then cell (rm r2) (a - row) b else cell (rm r1) a b.
Proof.
  intros Hp M1 M2 Ep Ec H0 H1. unfold osl_relation_replace_constraints.
  destruct (Z.eqb_spec (rprec r1) (rprec r2)); [|contradiction].
  destruct (Z.eqb_spec (ncols r1) (ncols r2)); [|contradiction].
  destruct (Z.ltb_spec (nrows r1) (row + nrows r2)); [lia|]. destruct (Z.ltb_spec row 0); [lia|].
  cbn [negb orb]. rewrite <- Ec.
  destruct (copy_rows (rprec r1) (rm r2) (nrows r2) (nrows r1) (ncols r1) 0 (nrows r2) 0 row
     (fun i j m => copy_cell (rprec r1) (rm r2) i j m (i + row) j) (rm r1)) as (m & E & M & C).
  - assumption.
  - assumption.
  - rewrite Ec. assumption.
  - destruct M2; lia.
  - lia.
  - intros. f_equal; lia.
  - rewrite E. cbn [bind]. exists m. split; [reflexivity|]. split; [assumption|].
    intros a b Ha Hb. rewrite C by assumption.
    replace (a - row + 0) with (a - row) by lia. replace (0 + row) with row by lia.
    replace (nrows r2 + row) with (row + nrows r2) by lia. reflexivity.
Qed.

Lemma insert_constraints_ok r1 r2 row0 :
  wf_rel cfg r1 -> wf_rel cfg r2 -> rprec r1 = rprec r2 -> ncols r1 = ncols r2 ->
  let row := if row0 =? -1 then nrows r1 else row0 in
  0 <= row <= nrows r1 ->
  osl_relation_insert_constraints r1 r2 row0 =
    Ok (with_rows r1 (ncols r1) (insert_at row (rows r2) (rows r1))).
Proof.
  intros W1 W2 Ep Ec row Hrow. unfold osl_relation_insert_constraints. fold row.
  pose proof (wf_mat r1 W1) as M1. pose proof (wf_mat r2 W2) as M2.
  pose proof (wf_nn r1 W1). pose proof (wf_nn r2 W2). pose proof (wf_supp r1 W1) as Hp.
  destruct (Z.eqb_spec (rprec r1) (rprec r2)); [|contradiction].
  destruct (Z.eqb_spec (ncols r1) (ncols r2)); [|contradiction].
  destruct (Z.ltb_spec (nrows r1) row); [lia|]. destruct (Z.ltb_spec row 0); [lia|].
  cbn [negb orb].
  destruct (pmalloc_ok (rprec r1) (nrows r1 + nrows r2) (ncols r1)) as (m0 & E0 & M0 & C0); try (assumption || lia).
  rewrite E0. cbn [bind]. fields.
  destruct (copy_rows (rprec r1) (rm r1) (nrows r1) (nrows r1 + nrows r2) (ncols r1) 0 row 0 0
     (fun i j m => copy_cell (rprec r1) (rm r1) i j m i j) m0) as (m3 & E3 & M3 & C3).
  { assumption. } { assumption. } { assumption. } { lia. } { lia. } { intros. f_equal; lia. }
  rewrite E3. cbn [bind]. unfold with_m at 1. fields.
  edestruct (replace_constraints_ok (mkrel (-1) (rprec r1) (nrows r1 + nrows r2) (ncols r1) (-1) (-1) (-1) (-1) m3)
     r2 row) as (m4 & E4 & M4 & C4); fields; try (assumption || lia).
  rewrite E4. cbn [bind]. unfold with_m at 1 2. fields.
  destruct (copy_rows (rprec r1) (rm r1) (nrows r1) (nrows r1 + nrows r2) (ncols r1)
     (row + nrows r2) (nrows r2 + nrows r1) (- nrows r2) 0
     (fun i j m => copy_cell (rprec r1) (rm r1) (i - nrows r2) j m i j) m4) as (m5 & E5 & M5 & C5).
  { assumption. } { assumption. } { assumption. } { lia. } { lia. } { intros. f_equal; lia. }
  rewrite E5. cbn [bind]. f_equal.
  apply with_m_rows; [assumption| | |].
  - rewrite insert_at_length; rewrite !rows_length; auto.
  - apply insert_at_Forall; [rewrite Ec|]; apply rows_width; assumption.
  - intros i j Hi Hj. rewrite C5, C4, C3 by lia.
    rewrite cell_insert_at by (rewrite ?rows_length by assumption; lia).
    rewrite rows_length by assumption.
    destruct (Z.leb_spec (row + nrows r2 + 0) i), (Z.ltb_spec i (nrows r2 + nrows r1 + 0)),
      (Z.leb_spec row i), (Z.ltb_spec i (row + nrows r2)), (Z.leb_spec (0 + 0) i),
      (Z.ltb_spec i (row + 0)), (Z.ltb_spec i row); cbn [andb]; try lia;
      rewrite cell_rows by (assumption || lia); f_equal; lia.
Qed.

Lemma insert_constraints_err r1 r2 row0 :
  let row := if row0 =? -1 then nrows r1 else row0 in
  rprec r1 <> rprec r2 \/ ncols r1 <> ncols r2 \/ nrows r1 < row \/ row < 0 ->
  osl_relation_insert_constraints r1 r2 row0 = Err.
Proof.
  intros row H. unfold osl_relation_insert_constraints. fold row.
  destruct (Z.eqb_spec (rprec r1) (rprec r2)), (Z.eqb_spec (ncols r1) (ncols r2)),
   (Z.ltb_spec (nrows r1) row), (Z.ltb_spec row 0); cbn [negb orb]; try reflexivity; lia.
Qed.

Lemma replace_constraints_err r1 r2 row :
  rprec r1 <> rprec r2 \/ ncols r1 <> ncols r2 \/ nrows r1 < row + nrows r2 \/ row < 0 ->
  osl_relation_replace_constraints r1 r2 row = Err.
Proof.
  intros H. unfold osl_relation_replace_constraints.
  destruct (Z.eqb_spec (rprec r1) (rprec r2)), (Z.eqb_spec (ncols r1) (ncols r2)),
   (Z.ltb_spec (nrows r1) (row + nrows r2)), (Z.ltb_spec row 0); cbn [negb orb]; try reflexivity; lia.
Qed.

Lemma replace_constraints_rows r1 r2 row :
  wf_rel cfg r1 -> wf_rel cfg r2 -> rprec r1 = rprec r2 -> ncols r1 = ncols r2 ->
  0 <= row -> row + nrows r2 <= nrows r1 ->
  osl_relation_replace_constraints r1 r2 row =
    Ok (with_rows r1 (ncols r1) (replace_at row (rows r2) (rows r1))).
Proof.
  intros W1 W2 Ep Ec H0 H1. pose proof (wf_nn r2 W2).
  destruct (replace_constraints_ok r1 r2 row) as (m & E & M & C); auto using wf_mat, wf_supp.
  rewrite E. f_equal. apply with_m_rows; [assumption| | |].
  - rewrite replace_at_length; rewrite ?rows_length by assumption; lia.
  - apply replace_at_Forall; [rewrite Ec|]; apply rows_width; assumption.
  - intros i j Hi Hj. rewrite C by lia.
    rewrite cell_replace_at by (rewrite ?rows_length by assumption; lia).
    rewrite rows_length by assumption.
    destruct (Z.leb_spec row i), (Z.ltb_spec i (row + nrows r2)); cbn [andb];
      rewrite cell_rows by (assumption || lia); reflexivity.
Qed.

Lemma remove_row_ok r row : wf_rel cfg r -> 0 <= row < nrows r ->
  osl_relation_remove_row r row = Ok (with_rows r (ncols r) (remove_at row (rows r))).
Proof.
  intros W Hrow. unfold osl_relation_remove_row.
  pose proof (wf_mat r W) as M1. pose proof (wf_nn r W). pose proof (wf_supp r W) as Hp.
  destruct (Z.ltb_spec row 0); [lia|]. destruct (Z.leb_spec (nrows r) row); [lia|]. cbn [orb].
  destruct (pmalloc_ok (rprec r) (nrows r - 1) (ncols r)) as (m0 & E0 & M0 & C0); try (assumption || lia).
  rewrite E0. cbn [bind]. fields.
  destruct (copy_rows (rprec r) (rm r) (nrows r) (nrows r - 1) (ncols r) 0 row 0 0
     (fun i j m => copy_cell (rprec r) (rm r) i j m i j) m0) as (m3 & E3 & M3 & C3).
  { assumption. } { assumption. } { assumption. } { lia. } { lia. } { intros. f_equal; lia. }
  rewrite E3. cbn [bind].
  destruct (copy_rows (rprec r) (rm r) (nrows r) (nrows r - 1) (ncols r)
     (row + 1) (nrows r) 0 (-1)
     (fun i j m => copy_cell (rprec r) (rm r) i j m (i - 1) j) m3) as (m5 & E5 & M5 & C5).
  { assumption. } { assumption. } { assumption. } { lia. } { lia. } { intros. f_equal; lia. }
  rewrite E5. cbn [bind]. f_equal.
  apply with_m_rows; [assumption| | |].
  - rewrite remove_at_length; rewrite !rows_length; auto.
  - apply remove_at_Forall. apply rows_width; assumption.
  - intros i j Hi Hj. rewrite C5, C3 by lia.
    rewrite cell_remove_at by (rewrite ?rows_length by assumption; lia).
    destruct (Z.leb_spec (row + 1 + -1) i), (Z.ltb_spec i (nrows r + -1)), (Z.leb_spec (0 + 0) i),
      (Z.ltb_spec i (row + 0)), (Z.ltb_spec i row); cbn [andb]; try lia;
      rewrite cell_rows by (assumption || lia); f_equal; lia.
Qed.

Lemma remove_row_err r row : row < 0 \/ nrows r <= row -> osl_relation_remove_row r row = Err.
Proof.
  intros H. unfold osl_relation_remove_row.
  destruct (Z.ltb_spec row 0), (Z.leb_spec (nrows r) row); try reflexivity; lia.
Qed.

(** ** Columns *)
Lemma Forall_rows_map (f : list Z -> list Z) c c' rs :
  (forall row, zlength row = c -> zlength (f row) = c') ->
  Forall (fun row => zlength row = c) rs -> Forall (fun row => zlength row = c') (map f rs).
Proof. intros Hf H. induction H; cbn; constructor; auto. Qed.

Lemma cell_map_rows (f : list Z -> list Z) rs i j : 0 <= i < zlength rs ->
  cell (map f rs) i j = znth 0 (f (znth [] rs i)) j.
Proof. intros H. unfold cell. rewrite (znth_map []) by assumption. reflexivity. Qed.

Lemma row_len r i : wf_rel cfg r -> 0 <= i < nrows r -> zlength (znth [] (rows r) i) = ncols r.
Proof.
  intros W Hi. apply (Forall_at (fun row => zlength row = ncols r)); [apply rows_width; assumption|].
  rewrite rows_length by assumption. assumption.
Qed.

Ltac bsplit := repeat match goal with
  | |- context[?a <? ?b] => destruct (Z.ltb_spec a b)
  | |- context[?a <=? ?b] => destruct (Z.leb_spec a b)
  | |- context[?a =? ?b] => destruct (Z.eqb_spec a b)
  end; cbn [andb orb negb]; try lia.

Lemma insert_blank_column_ok r c : wf_rel cfg r -> 0 <= c <= ncols r ->
  osl_relation_insert_blank_column r c =
    Ok (with_rows r (ncols r + 1) (map (insert_at c [0]) (rows r))).
Proof.
  intros W Hc. unfold osl_relation_insert_blank_column.
  pose proof (wf_mat r W) as M1. pose proof (wf_nn r W). pose proof (wf_supp r W) as Hp.
  destruct (Z.ltb_spec c 0); [lia|]. destruct (Z.ltb_spec (ncols r) c); [lia|]. cbn [orb].
  destruct (pmalloc_ok (rprec r) (nrows r) (ncols r + 1)) as (m0 & E0 & M0 & C0); try (assumption || lia).
  rewrite E0. cbn [bind]. fields.
  run_fill_rows (nrows r) (ncols r + 1) 0
    (fun i b => if b =? c then cell m0 i b else if b <? c then cell (rm r) i b else cell (rm r) i (b - 1)).
  - assumption.
  - lia.
  - intros i m' Hi M' Hrow.
    run_fill_row (nrows r) (ncols r + 1) i 0 (fun b => cell (rm r) i b); try (assumption || lia).
    { intros. rewrite (copy_cell_ok _ _ _ _ _ _ _ (nrows r) (ncols r)) by (assumption || lia). f_equal; lia. }
    run_fill_row (nrows r) (ncols r + 1) i 1 (fun b => cell (rm r) i b); try (assumption || lia).
    { intros. rewrite (copy_cell_ok _ _ _ _ _ _ _ (nrows r) (ncols r)) by (assumption || lia). f_equal; lia. }
    eexists. split; [reflexivity|]. split; [assumption|]. intros a b Ha Hb. rewrite Hm0, Hm by lia.
    replace (i + 0) with i in Hrow by lia. rewrite !Z.add_0_r, ?Z.sub_0_r.
    destruct (Z.eqb_spec a i) as [->|]; cbn [andb]; [|reflexivity].
    bsplit.
  - f_equal. apply with_m_rows.
    + assumption.
    + rewrite zlength_map. apply rows_length. assumption.
    + eapply Forall_rows_map; [|apply rows_width; assumption]. intros row El.
      rewrite insert_at_length by lia. rewrite El. reflexivity.
    + intros i j Hi Hj. rewrite Hm by lia. rewrite cell_map_rows by (rewrite rows_length; auto).
      rewrite insert_at_nth by (rewrite ?row_len by auto; lia).
      rewrite !Z.add_0_r, !Z.sub_0_r. change (zlength [0]) with 1.
      destruct (Z.leb_spec 0 i), (Z.ltb_spec i (nrows r)); try lia; cbn [andb].
      destruct (Z.eqb_spec j c) as [->|Hj'].
      * rewrite C0 by lia. bsplit. replace (c - c) with 0 by lia. reflexivity.
      * bsplit; rewrite cell_rows by (assumption || lia); reflexivity.
Qed.

Lemma remove_column_ok r c : wf_rel cfg r -> 0 <= c < ncols r ->
  osl_relation_remove_column r c =
    Ok (with_rows r (ncols r - 1) (map (remove_at c) (rows r))).
Proof.
  intros W Hc. unfold osl_relation_remove_column.
  pose proof (wf_mat r W) as M1. pose proof (wf_nn r W). pose proof (wf_supp r W) as Hp.
  destruct (Z.ltb_spec c 0); [lia|]. destruct (Z.leb_spec (ncols r) c); [lia|]. cbn [orb].
  destruct (pmalloc_ok (rprec r) (nrows r) (ncols r - 1)) as (m0 & E0 & M0 & C0); try (assumption || lia).
  rewrite E0. cbn [bind]. fields.
  run_fill_rows (nrows r) (ncols r - 1) 0
    (fun i b => if b <? c then cell (rm r) i b else cell (rm r) i (b + 1)).
  - assumption.
  - lia.
  - intros i m' Hi M' Hrow.
    run_fill_row (nrows r) (ncols r - 1) i 0 (fun b => cell (rm r) i b); try (assumption || lia).
    { intros. rewrite (copy_cell_ok _ _ _ _ _ _ _ (nrows r) (ncols r)) by (assumption || lia). f_equal; lia. }
    run_fill_row (nrows r) (ncols r - 1) i (-1) (fun b => cell (rm r) i b); try (assumption || lia).
    { intros. rewrite (copy_cell_ok _ _ _ _ _ _ _ (nrows r) (ncols r)) by (assumption || lia). f_equal; lia. }
    eexists. split; [reflexivity|]. split; [assumption|]. intros a b Ha Hb. rewrite Hm0, Hm by lia.
    rewrite !Z.add_0_r, ?Z.sub_0_r.
    destruct (Z.eqb_spec a i) as [->|]; cbn [andb]; [|reflexivity].
    bsplit; try (f_equal; lia).
  - f_equal. apply with_m_rows.
    + assumption.
    + rewrite zlength_map. apply rows_length. assumption.
    + eapply Forall_rows_map; [|apply rows_width; assumption]. intros row El.
      rewrite remove_at_length by lia. rewrite El. reflexivity.
    + intros i j Hi Hj. rewrite Hm by lia. rewrite cell_map_rows by (rewrite rows_length; auto).
      rewrite remove_at_nth by (rewrite ?row_len by auto; lia).
      rewrite !Z.add_0_r, !Z.sub_0_r.
      bsplit; rewrite cell_rows by (assumption || lia); reflexivity.
Qed.

Lemma insert_blank_column_err r c : c < 0 \/ ncols r < c -> osl_relation_insert_blank_column r c = Err.
Proof. intros H. unfold osl_relation_insert_blank_column. bsplit; reflexivity. Qed.
Lemma remove_column_err r c : c < 0 \/ ncols r <= c -> osl_relation_remove_column r c = Err.
Proof. intros H. unfold osl_relation_remove_column. bsplit; reflexivity. Qed.

Definition map2 (f : list Z -> list Z -> list Z) (a b : list (list Z)) : list (list Z) :=
  map (fun ab => f (fst ab) (snd ab)) (combine a b).

Lemma map2_length f a b : zlength a = zlength b -> zlength (map2 f a b) = zlength a.
Proof. unfold map2, zlength. rewrite map_length, combine_length. lia. Qed.

Lemma map2_nth f a b i : zlength a = zlength b -> 0 <= i < zlength a ->
  znth [] (map2 f a b) i = f (znth [] a i) (znth [] b i).
Proof.
  intros Hl Hi. unfold map2. rewrite (znth_map ([], [])).
  - unfold znth. rewrite combine_nth by (unfold zlength in Hl; lia). reflexivity.
  - unfold zlength in *. rewrite combine_length. lia.
Qed.

Lemma cell_map2 f a b i j : zlength a = zlength b -> 0 <= i < zlength a ->
  cell (map2 f a b) i j = znth 0 (f (znth [] a i) (znth [] b i)) j.
Proof. intros. unfold cell. rewrite map2_nth by assumption. reflexivity. Qed.

Lemma insert_columns_ok r ins c : wf_rel cfg r -> wf_rel cfg ins ->
  rprec r = rprec ins -> nrows r = nrows ins -> 0 <= c <= ncols r ->
  osl_relation_insert_columns r ins c =
    Ok (with_rows r (ncols r + ncols ins) (map2 (fun row new => insert_at c new row) (rows r) (rows ins))).
Proof.
  intros W W2 Ep Er Hc. unfold osl_relation_insert_columns.
  pose proof (wf_mat r W) as M1. pose proof (wf_nn r W). pose proof (wf_supp r W) as Hp.
  pose proof (wf_mat ins W2) as M2. pose proof (wf_nn ins W2).
  destruct (Z.eqb_spec (rprec r) (rprec ins)); [|contradiction].
  destruct (Z.eqb_spec (nrows r) (nrows ins)); [|contradiction].
  destruct (Z.ltb_spec c 0); [lia|]. destruct (Z.ltb_spec (ncols r) c); [lia|]. cbn [negb orb].
  destruct (pmalloc_ok (rprec r) (nrows r) (ncols r + ncols ins)) as (m0 & E0 & M0 & C0); try (assumption || lia).
  rewrite E0. cbn [bind]. fields.
  run_fill_rows (nrows r) (ncols r + ncols ins) 0
    (fun i b => if b <? c then cell (rm r) i b else if b <? c + ncols ins then cell (rm ins) i (b - c)
                else cell (rm r) i (b - ncols ins)).
  - assumption.
  - lia.
  - intros i m' Hi M' Hrow.
    run_fill_row (nrows r) (ncols r + ncols ins) i 0 (fun b => cell (rm r) i b); try (assumption || lia).
    { intros. rewrite (copy_cell_ok _ _ _ _ _ _ _ (nrows r) (ncols r)) by (assumption || lia). f_equal; lia. }
    run_fill_row (nrows r) (ncols r + ncols ins) i 0 (fun b => cell (rm ins) i (b - c)); try (assumption || lia).
    { intros. rewrite (copy_cell_ok _ _ _ _ _ _ _ (nrows ins) (ncols ins)) by (assumption || lia). f_equal; lia. }
    run_fill_row (nrows r) (ncols r + ncols ins) i 0 (fun b => cell (rm r) i (b - ncols ins)); try (assumption || lia).
    { intros. rewrite (copy_cell_ok _ _ _ _ _ _ _ (nrows r) (ncols r)) by (assumption || lia). f_equal; lia. }
    eexists. split; [reflexivity|]. split; [assumption|]. intros a b Ha Hb. rewrite Hm1, Hm0, Hm by lia.
    rewrite !Z.add_0_r, ?Z.sub_0_r.
    destruct (Z.eqb_spec a i) as [->|]; cbn [andb]; [|reflexivity].
    bsplit; try (f_equal; lia).
  - f_equal. assert (Hrl : zlength (rows r) = zlength (rows ins)) by (rewrite !rows_length; auto).
    apply with_m_rows.
    + assumption.
    + rewrite map2_length by assumption. apply rows_length. assumption.
    + apply (Forall_znth _ []). rewrite map2_length, rows_length by assumption. intros i Hi.
      rewrite map2_nth by (rewrite ?rows_length; auto).
      rewrite insert_at_length by (rewrite row_len by auto; lia). rewrite !row_len by (auto; lia). reflexivity.
    + intros i j Hi Hj. rewrite Hm by lia.
      rewrite cell_map2 by (rewrite ?rows_length; auto).
      rewrite insert_at_nth by (rewrite ?row_len by auto; lia).
      rewrite row_len by (auto; lia).
      rewrite !Z.add_0_r, !Z.sub_0_r.
      bsplit; rewrite cell_rows by (assumption || lia); reflexivity.
Qed.

Lemma insert_columns_err r ins c :
  rprec r <> rprec ins \/ nrows r <> nrows ins \/ c < 0 \/ ncols r < c ->
  osl_relation_insert_columns r ins c = Err.
Proof. intros H. unfold osl_relation_insert_columns. bsplit; reflexivity. Qed.

End RELATIONPROOFS.
Ltac bsplit := repeat match goal with
  | |- context[?a <? ?b] => destruct (Z.ltb_spec a b)
  | |- context[?a <=? ?b] => destruct (Z.leb_spec a b)
  | |- context[?a =? ?b] => destruct (Z.eqb_spec a b)
  end; cbn [andb orb negb]; try lia.
