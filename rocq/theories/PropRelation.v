(** * Properties C07, C09-C16 of relations (equality, clone, union, row and column edits, extension) *)
From Coq Require Import ZifyBool ZifyNat.
From Verif Require Import Base IntModel VectorModel RelationModel Spec RelSpec LoopLemmas IntProofs VectorProofs
  RelationProofs RelationProofs2 RelationProofs3 RelationProofs4.

(** ** C09: equality is structural *)

(** The verdict is true exactly when the parts are the same, in the same order,
    with the same type, precision, dimensions and coefficients. *)
Theorem C09_equal_structural : forall (cfg : config) (u1 u2 : list relation),
  config_ok cfg -> wf_union cfg u1 -> wf_union cfg u2 ->
  exists b, osl_relation_equal u1 u2 = Ok b /\
    (b = true <->
       Forall2 (fun r1 r2 => rtype r1 = rtype r2 /\ rprec r1 = rprec r2 /\
                  nrows r1 = nrows r2 /\ ncols r1 = ncols r2 /\
                  nout r1 = nout r2 /\ nin r1 = nin r2 /\ nloc r1 = nloc r2 /\ npar r1 = npar r2 /\
                  rows r1 = rows r2) u1 u2).
Proof.
  intros cfg u1 u2 Hc W1 W2. destruct (equal_ok u1 u2 W1 W2) as (b & E & Hb).
  exists b. split; [exact E|]. rewrite Hb. clear b E Hb. split.
  - intros <-. clear. induction u1; constructor; auto 12.
  - intros H. revert W1 W2. induction H as [|r1 r2 u1 u2 H HF IH]; intros W1 W2; [reflexivity|].
    f_equal; [|apply IH; eapply Forall_inv_tail; eassumption].
    apply Forall_inv in W1. apply Forall_inv in W2.
    rewrite <- (with_rows_id r1 W1), <- (with_rows_id r2 W2). unfold with_rows.
    destruct H as (H1 & H2 & H3 & H4 & H5 & H6 & H7 & H8 & H9). rewrite H1, H2, H4, H5, H6, H7, H8, H9. reflexivity.
Qed.
Print Assumptions C09_equal_structural.

(** Hence an equivalence relation. *)
Theorem C09_equal_equivalence : forall (cfg : config) (u1 u2 u3 : list relation),
  config_ok cfg -> wf_union cfg u1 -> wf_union cfg u2 -> wf_union cfg u3 ->
  osl_relation_equal u1 u1 = Ok true /\
  osl_relation_equal u1 u2 = osl_relation_equal u2 u1 /\
  (osl_relation_equal u1 u2 = Ok true -> osl_relation_equal u2 u3 = Ok true ->
   osl_relation_equal u1 u3 = Ok true).
Proof.
  intros cfg u1 u2 u3 Hc W1 W2 W3.
  destruct (equal_ok u1 u1 W1 W1) as (b11 & -> & H11).
  destruct (equal_ok u1 u2 W1 W2) as (b12 & -> & H12).
  destruct (equal_ok u2 u1 W2 W1) as (b21 & -> & H21).
  destruct (equal_ok u2 u3 W2 W3) as (b23 & -> & H23).
  destruct (equal_ok u1 u3 W1 W3) as (b13 & -> & H13).
  split; [f_equal; tauto|]. split.
  - f_equal. destruct b12, b21; try reflexivity; [assert (u1 = u2) as E by tauto|assert (u2 = u1) as E by tauto]; symmetry in E;
    [apply H21 in E|apply H12 in E]; congruence.
  - intros E1 E2. injection E1 as ->. injection E2 as ->. f_equal. apply H13.
    transitivity u2; tauto.
Qed.
Print Assumptions C09_equal_equivalence.

(** The same for single parts. *)
Theorem C09_part_equal : forall (cfg : config) (r1 r2 : relation),
  config_ok cfg -> wf_rel cfg r1 -> wf_rel cfg r2 ->
  exists b, osl_relation_part_equal r1 r2 = Ok b /\ (b = true <-> r1 = r2).
Proof. intros cfg r1 r2 Hc. apply part_equal_ok. Qed.
Print Assumptions C09_part_equal.

(** ** C10: clones (value part; independence is in the heap model) *)
Theorem C10_clone_equal : forall (cfg : config) (u : list relation),
  config_ok cfg -> wf_union cfg u ->
  osl_relation_clone u = Ok u /\ osl_relation_nclone u (-1) = Ok u /\
  osl_relation_clone_nconstraints u (-1) = Ok u.
Proof.
  intros cfg u Hc W. split; [apply clone_ok; assumption|]. split; [|apply clone_nconstraints_all; assumption].
  unfold osl_relation_nclone. change (-1 =? -1) with true. cbv iota.
  rewrite nb_components_length. destruct (Z.ltb_spec (zlength u) (zlength u)); [lia|].
  rewrite nclone_loop_ok by (auto; unfold zlength; lia).
  unfold zlength. rewrite Nat2Z.id, firstn_all. reflexivity.
Qed.
Print Assumptions C10_clone_equal.

(** A prefix of the parts, or of the constraints of each part. *)
Theorem C10_clone_prefix : forall (cfg : config) (u : list relation) (n : Z),
  config_ok cfg -> wf_union cfg u -> 0 <= n ->
  (n <= zlength u -> osl_relation_nclone u n = Ok (firstn (Z.to_nat n) u)) /\
  (zlength u < n -> osl_relation_nclone u n = Err) /\
  (Forall (fun r => n <= nrows r) u ->
     osl_relation_clone_nconstraints u n =
       Ok (map (fun r => with_rows r (ncols r) (firstn (Z.to_nat n) (rows r))) u)) /\
  (Exists (fun r => nrows r < n) u -> osl_relation_clone_nconstraints u n = Err).
Proof.
  intros cfg u n Hc W Hn. split; [|split; [|split]].
  - intros H. apply nclone_ok; auto.
  - intros H. unfold osl_relation_nclone. rewrite nb_components_length.
    destruct (Z.eqb_spec n (-1)); [lia|]. destruct (Z.ltb_spec (zlength u) n); [reflexivity|lia].
  - intros H. apply clone_nconstraints_ok; auto.
  - intros H. induction W as [|r u Hr W IH]; [inversion H|]. cbn [osl_relation_clone_nconstraints].
    destruct (Z.eqb_spec n (-1)); [lia|].
    destruct (Z.ltb_spec (nrows r) n); [reflexivity|].
    rewrite clone_part_ok by (auto; lia). cbn [bind].
    rewrite IH; [reflexivity|]. inversion H; subst; [lia|assumption].
Qed.
Print Assumptions C10_clone_prefix.

(** ** C11: union *)
Theorem C11_union_parts : forall (cfg : config) (u1 u2 : list relation),
  config_ok cfg -> wf_union cfg u1 -> wf_union cfg u2 ->
  osl_relation_add u1 u2 = u1 ++ u2 /\
  osl_relation_union u1 u2 = Ok (u1 ++ u2) /\
  osl_relation_nb_components (u1 ++ u2) = zlength u1 + zlength u2.
Proof.
  intros cfg u1 u2 Hc W1 W2. split; [apply add_app|]. split; [apply union_ok; assumption|].
  rewrite nb_components_length. apply zlength_app.
Qed.
Print Assumptions C11_union_parts.

(** The result denotes the set union, both as a set of points and as a relation. *)
Theorem C11_union_denotes : forall (cfg : config) (u1 u2 u : list relation),
  config_ok cfg -> wf_union cfg u1 -> wf_union cfg u2 ->
  osl_relation_union u1 u2 = Ok u \/ osl_relation_add u1 u2 = u ->
  wf_union cfg u /\
  (forall x, in_union u x <-> in_union u1 x \/ in_union u2 x) /\
  (forall out inp par, relates_union u out inp par <->
     relates_union u1 out inp par \/ relates_union u2 out inp par).
Proof.
  intros cfg u1 u2 u Hc W1 W2 H.
  assert (E : u = u1 ++ u2).
  { destruct H as [H|H]; [|rewrite add_app in H; congruence].
    rewrite (union_ok u1 u2) in H by assumption. congruence. }
  subst u. split; [apply Forall_app; split; assumption|]. split; intros; apply Exists_app.
Qed.
Print Assumptions C11_union_denotes.

(** ** C12: row edits *)

(** Which rows are where after each edit; everything else about the part
    (type, precision, attributes, number of columns) is unchanged. *)
Theorem C12_insert_row : forall (cfg : config) (r r2 : relation) (v : vector) (row : Z),
  config_ok cfg -> wf_rel cfg r -> wf_rel cfg r2 -> wf_vec cfg v ->
  rprec r2 = rprec r -> ncols r2 = ncols r -> vprec v = rprec r -> vsize v = ncols r ->
  0 <= row <= nrows r ->
  osl_relation_insert_constraints r r2 row = Ok (with_rows r (ncols r) (insert_at row (rows r2) (rows r))) /\
  osl_relation_insert_vector r v row = Ok (with_rows r (ncols r) (insert_at row [vv v] (rows r))) /\
  osl_relation_insert_blank_row r row =
    Ok (with_rows r (ncols r) (insert_at row [repeat 0 (Z.to_nat (ncols r))] (rows r))).
Proof.
  intros cfg r r2 v row Hc W W2 Wv E1 E2 E3 E4 Hr.
  assert (Hrow : (if row =? -1 then nrows r else row) = row) by (destruct (Z.eqb_spec row (-1)); lia).
  pose proof (insert_constraints_ok r r2 row W W2 (eq_sym E1) (eq_sym E2)) as H1.
  pose proof (insert_vector_ok r v row W Wv (eq_sym E3) (eq_sym E4)) as H2.
  pose proof (insert_blank_row_ok Hc r row W) as H3.
  cbv zeta in H1, H2, H3. rewrite Hrow in H1, H2, H3. auto.
Qed.
Print Assumptions C12_insert_row.

(** Row -1 means "after the last row". *)
Theorem C12_insert_last : forall (cfg : config) (r r2 : relation) (v : vector),
  config_ok cfg -> wf_rel cfg r -> wf_rel cfg r2 -> wf_vec cfg v ->
  rprec r2 = rprec r -> ncols r2 = ncols r -> vprec v = rprec r -> vsize v = ncols r ->
  osl_relation_insert_constraints r r2 (-1) = Ok (with_rows r (ncols r) (rows r ++ rows r2)) /\
  osl_relation_insert_vector r v (-1) = Ok (with_rows r (ncols r) (rows r ++ [vv v])) /\
  osl_relation_insert_blank_row r (-1) =
    Ok (with_rows r (ncols r) (rows r ++ [repeat 0 (Z.to_nat (ncols r))])).
Proof.
  intros cfg r r2 v Hc W W2 Wv E1 E2 E3 E4.
  assert (Hn : forall new, insert_at (nrows r) new (rows r) = rows r ++ new).
  { intros new. unfold insert_at. rewrite <- (rows_length r W). unfold zlength. rewrite Nat2Z.id, firstn_all, skipn_all, app_nil_r. reflexivity. }
  pose proof (wf_nn r W) as Hnn.
  pose proof (insert_constraints_ok r r2 (-1) W W2 (eq_sym E1) (eq_sym E2)) as H1.
  pose proof (insert_vector_ok r v (-1) W Wv (eq_sym E3) (eq_sym E4)) as H2.
  pose proof (insert_blank_row_ok Hc r (-1) W) as H3.
  cbv zeta in H1, H2, H3. change (-1 =? -1) with true in H1, H2, H3. cbv iota in H1, H2, H3.
  rewrite Hn in H1, H2, H3. split; [apply H1; lia|]. split; [apply H2; lia|apply H3; lia].
Qed.
Print Assumptions C12_insert_last.

Theorem C12_replace_remove_row : forall (cfg : config) (r r2 : relation) (v : vector) (row : Z),
  config_ok cfg -> wf_rel cfg r -> wf_rel cfg r2 -> wf_vec cfg v ->
  rprec r2 = rprec r -> ncols r2 = ncols r -> vprec v = rprec r -> vsize v = ncols r ->
  0 <= row < nrows r ->
  osl_relation_replace_vector r v row = Ok (with_rows r (ncols r) (replace_at row [vv v] (rows r))) /\
  (row + nrows r2 <= nrows r ->
   osl_relation_replace_constraints r r2 row = Ok (with_rows r (ncols r) (replace_at row (rows r2) (rows r)))) /\
  osl_relation_remove_row r row = Ok (with_rows r (ncols r) (remove_at row (rows r))).
Proof.
  intros cfg r r2 v row Hc W W2 Wv E1 E2 E3 E4 Hr. split; [|split].
  - apply replace_vector_ok; auto.
  - intros H. apply replace_constraints_rows; auto. lia.
  - apply remove_row_ok; auto.
Qed.
Print Assumptions C12_replace_remove_row.

(** Swapping exchanges the two rows and leaves the others alone. *)
Theorem C12_swap_rows : forall (cfg : config) (r : relation) (a b c : list (list Z)) (x y : list Z),
  config_ok cfg -> wf_rel cfg r -> rows r = a ++ x :: b ++ y :: c ->
  let i := zlength a in let j := zlength a + 1 + zlength b in
  osl_relation_swap_constraints r i j = Ok (with_rows r (ncols r) (a ++ y :: b ++ x :: c)) /\
  osl_relation_swap_constraints r j i = Ok (with_rows r (ncols r) (a ++ y :: b ++ x :: c)) /\
  osl_relation_swap_constraints r i i = Ok r.
Proof.
  intros cfg r a b c x y Hc W E i j.
  pose proof (zlength_nonneg a) as Ha. pose proof (zlength_nonneg b) as Hb. pose proof (zlength_nonneg c) as Hd.
  assert (Hl : zlength (rows r) = zlength a + 1 + zlength b + 1 + zlength c).
  { rewrite E, zlength_app, zlength_cons, zlength_app, zlength_cons. lia. }
  assert (Hn : nrows r = zlength a + 1 + zlength b + 1 + zlength c) by (rewrite <- Hl; symmetry; apply rows_length; assumption).
  assert (Hx : znth [] (rows r) i = x).
  { rewrite E. unfold znth, i. rewrite app_nth2 by (unfold zlength; lia).
    replace (Z.to_nat (zlength a) - length a)%nat with 0%nat by (unfold zlength; lia). reflexivity. }
  assert (Hy : znth [] (rows r) j = y).
  { rewrite E. unfold znth, j. rewrite app_nth2 by (unfold zlength; lia).
    replace (Z.to_nat (zlength a + 1 + zlength b) - length a)%nat with (S (length b)) by (unfold zlength; lia).
    cbn [nth]. rewrite app_nth2 by lia. replace (length b - length b)%nat with 0%nat by lia. reflexivity. }
  assert (Hset : forall (l1 l2 : list (list Z)) z v, list_set (length l1) v (l1 ++ z :: l2) = l1 ++ v :: l2).
  { induction l1; intros; cbn; [reflexivity|]. f_equal. apply IHl1. }
  assert (Hi' : Z.to_nat i = length a) by (unfold i, zlength; lia).
  assert (Hj' : Z.to_nat j = length (a ++ x :: b)) by (rewrite app_length; cbn [length]; unfold j, zlength; lia).
  assert (Hj'' : Z.to_nat j = length (a ++ y :: b)) by (rewrite app_length; cbn [length]; unfold j, zlength; lia).
  assert (E' : rows r = (a ++ x :: b) ++ y :: c) by (rewrite E, <- app_assoc; reflexivity).
  split; [|split].
  - rewrite swap_ok' by (auto; unfold i, j; lia). do 2 f_equal. unfold swap_at. rewrite Hx, Hy.
    rewrite Hj'. rewrite E' at 1. rewrite Hset. rewrite <- app_assoc. cbn [app]. rewrite Hi', Hset. reflexivity.
  - rewrite swap_ok' by (auto; unfold i, j; lia). do 2 f_equal. unfold swap_at. rewrite Hx, Hy.
    rewrite Hi'. rewrite E at 1. rewrite Hset.
    replace (a ++ y :: b ++ y :: c) with ((a ++ y :: b) ++ y :: c) by (rewrite <- app_assoc; reflexivity).
    rewrite Hj'', Hset, <- app_assoc. reflexivity.
  - unfold osl_relation_swap_constraints. rewrite Z.eqb_refl. reflexivity.
Qed.
Print Assumptions C12_swap_rows.

(** Every edit keeps the part well formed. *)
Theorem C12_row_edits_well_formed : forall (cfg : config) (r r2 r' : relation) (v : vector) (row row2 : Z),
  config_ok cfg -> wf_rel cfg r -> wf_rel cfg r2 -> wf_vec cfg v ->
  osl_relation_insert_constraints r r2 row = Ok r' \/ osl_relation_insert_vector r v row = Ok r' \/
  osl_relation_insert_blank_row r row = Ok r' \/ osl_relation_replace_vector r v row = Ok r' \/
  osl_relation_replace_constraints r r2 row = Ok r' \/ osl_relation_remove_row r row = Ok r' \/
  osl_relation_swap_constraints r row row2 = Ok r' ->
  wf_rel cfg r' /\ ncols r' = ncols r /\ rtype r' = rtype r /\ rprec r' = rprec r /\
  nout r' = nout r /\ nin r' = nin r /\ nloc r' = nloc r /\ npar r' = npar r.
Proof.
  intros cfg r r2 r' v row row2 Hc W W2 Wv H.
  pose proof (wf_nn r W) as Hnn. pose proof (wf_nn r2 W2) as Hnn2. pose proof (wf_supp r W) as Hsup.
  pose proof (rows_width r W) as Hw. pose proof (rows_rep r W) as Hrep.
  assert (K : forall rs, Forall (fun x => zlength x = ncols r) rs -> Forall (Forall (representable cfg (rprec r))) rs ->
     r' = with_rows r (ncols r) rs ->
     wf_rel cfg r' /\ ncols r' = ncols r /\ rtype r' = rtype r /\ rprec r' = rprec r /\
     nout r' = nout r /\ nin r' = nin r /\ nloc r' = nloc r /\ npar r' = npar r).
  { intros rs F1 F2 ->. split; [apply wf_with_rows; auto; lia|]. repeat split. }
  assert (Hrv : rprec r = vprec v -> ncols r = vsize v -> zlength (vv v) = ncols r /\ Forall (representable cfg (rprec r)) (vv v)).
  { intros E1 E2. destruct Wv as (_ & Hs & Hv). rewrite E1. split; [lia|assumption]. }
  destruct H as [H|[H|[H|[H|[H|[H|H]]]]]].
  - destruct (Z.eq_dec (rprec r) (rprec r2)) as [e1|e1]; [|rewrite insert_constraints_err in H by tauto; discriminate].
    destruct (Z.eq_dec (ncols r) (ncols r2)) as [e2|e2]; [|rewrite insert_constraints_err in H by tauto; discriminate].
    set (k := if row =? -1 then nrows r else row) in *.
    destruct (Z_le_dec 0 k) as [e3|e3]; [|rewrite insert_constraints_err in H by (fold k; lia); discriminate].
    destruct (Z_le_dec k (nrows r)) as [e4|e4]; [|rewrite insert_constraints_err in H by (fold k; lia); discriminate].
    rewrite insert_constraints_ok in H by (auto; fold k; lia). fold k in H. injection H as H. symmetry in H.
    eapply K; [| |exact H]; apply insert_at_Forall; auto; [rewrite e2; apply rows_width|rewrite e1; apply rows_rep]; assumption.
  - destruct (Z.eq_dec (rprec r) (vprec v)) as [e1|e1]; [|rewrite insert_vector_err in H by tauto; discriminate].
    destruct (Z.eq_dec (ncols r) (vsize v)) as [e2|e2]; [|rewrite insert_vector_err in H by tauto; discriminate].
    set (k := if row =? -1 then nrows r else row) in *.
    destruct (Z_le_dec 0 k) as [e3|e3]; [|rewrite insert_vector_err in H by (auto; fold k; lia); discriminate].
    destruct (Z_le_dec k (nrows r)) as [e4|e4]; [|rewrite insert_vector_err in H by (auto; fold k; lia); discriminate].
    rewrite insert_vector_ok in H by (auto; fold k; lia). fold k in H. injection H as H. symmetry in H.
    destruct (Hrv e1 e2). eapply K; [| |exact H]; apply insert_at_Forall; auto.
  - set (k := if row =? -1 then nrows r else row) in *.
    destruct (Z_le_dec 0 k) as [e3|e3]; [|rewrite insert_blank_row_err in H by (auto; fold k; lia); discriminate].
    destruct (Z_le_dec k (nrows r)) as [e4|e4]; [|rewrite insert_blank_row_err in H by (auto; fold k; lia); discriminate].
    rewrite insert_blank_row_ok in H by (auto; fold k; lia). fold k in H. injection H as H. symmetry in H.
    destruct (zero_vec_wf Hc (rprec r) (ncols r) Hsup ltac:(lia)) as (_ & Hs & Hv). cbn [vv vsize vprec] in *.
    eapply K; [| |exact H]; apply insert_at_Forall; auto.
  - destruct (Z.eq_dec (rprec r) (vprec v)) as [e1|e1]; [|rewrite replace_vector_err in H by tauto; discriminate].
    destruct (Z.eq_dec (ncols r) (vsize v)) as [e2|e2]; [|rewrite replace_vector_err in H by tauto; discriminate].
    destruct (Z_le_dec 0 row) as [e3|e3]; [|rewrite replace_vector_err in H by lia; discriminate].
    destruct (Z_lt_dec row (nrows r)) as [e4|e4]; [|rewrite replace_vector_err in H by lia; discriminate].
    rewrite replace_vector_ok in H by (auto; lia). injection H as H. symmetry in H.
    destruct (Hrv e1 e2). eapply K; [| |exact H]; apply replace_at_Forall; auto.
  - destruct (Z.eq_dec (rprec r) (rprec r2)) as [e1|e1]; [|rewrite replace_constraints_err in H by tauto; discriminate].
    destruct (Z.eq_dec (ncols r) (ncols r2)) as [e2|e2]; [|rewrite replace_constraints_err in H by tauto; discriminate].
    destruct (Z_le_dec 0 row) as [e3|e3]; [|rewrite replace_constraints_err in H by lia; discriminate].
    destruct (Z_le_dec (row + nrows r2) (nrows r)) as [e4|e4]; [|rewrite replace_constraints_err in H by lia; discriminate].
    rewrite replace_constraints_rows in H by (auto; lia). injection H as H. symmetry in H.
    eapply K; [| |exact H]; apply replace_at_Forall; auto; [rewrite e2; apply rows_width|rewrite e1; apply rows_rep]; assumption.
  - destruct (Z_le_dec 0 row) as [e3|e3]; [|rewrite remove_row_err in H by lia; discriminate].
    destruct (Z_lt_dec row (nrows r)) as [e4|e4]; [|rewrite remove_row_err in H by lia; discriminate].
    rewrite remove_row_ok in H by (auto; lia). injection H as H. symmetry in H.
    eapply K; [| |exact H]; apply remove_at_Forall; auto.
  - destruct (Z.eq_dec row row2) as [e|e].
    + unfold osl_relation_swap_constraints in H. rewrite e, Z.eqb_refl in H. injection H as <-. auto 12.
    + destruct (Z_le_dec 0 row) as [e3|e3]; [|rewrite swap_err in H by (auto; lia); discriminate].
      destruct (Z_lt_dec row (nrows r)) as [e4|e4]; [|rewrite swap_err in H by (auto; lia); discriminate].
      destruct (Z_le_dec 0 row2) as [e5|e5]; [|rewrite swap_err in H by (auto; lia); discriminate].
      destruct (Z_lt_dec row2 (nrows r)) as [e6|e6]; [|rewrite swap_err in H by (auto; lia); discriminate].
      rewrite swap_ok' in H by (auto; lia). injection H as H. symmetry in H.
      assert (Hlr : zlength (rows r) = nrows r) by (apply rows_length; assumption).
      eapply K; [| |exact H]; apply Forall_swap_at; auto; lia.
Qed.
Print Assumptions C12_row_edits_well_formed.

(** Out-of-range positions and incompatible operands stop the program. *)
Theorem C12_row_edits_checked : forall (cfg : config) (r r2 : relation) (v : vector) (row row2 : Z),
  config_ok cfg -> wf_rel cfg r -> wf_rel cfg r2 -> wf_vec cfg v ->
  ((rprec r2 <> rprec r \/ ncols r2 <> ncols r \/ nrows r < row \/ row < -1) ->
     osl_relation_insert_constraints r r2 row = Err) /\
  ((vprec v <> rprec r \/ vsize v <> ncols r \/ nrows r < row \/ row < -1) ->
     osl_relation_insert_vector r v row = Err) /\
  ((nrows r < row \/ row < -1) -> osl_relation_insert_blank_row r row = Err) /\
  ((vprec v <> rprec r \/ vsize v <> ncols r \/ nrows r <= row \/ row < 0) ->
     osl_relation_replace_vector r v row = Err) /\
  ((rprec r2 <> rprec r \/ ncols r2 <> ncols r \/ nrows r < row + nrows r2 \/ row < 0) ->
     osl_relation_replace_constraints r r2 row = Err) /\
  ((nrows r <= row \/ row < 0) -> osl_relation_remove_row r row = Err) /\
  (row <> row2 -> (nrows r <= row \/ row < 0 \/ nrows r <= row2 \/ row2 < 0) ->
     osl_relation_swap_constraints r row row2 = Err).
Proof.
  intros cfg r r2 v row row2 Hc W W2 Wv. pose proof (wf_nn r W).
  split; [|split; [|split; [|split; [|split; [|split]]]]].
  - intros H'. apply insert_constraints_err. destruct (Z.eqb_spec row (-1)); lia.
  - intros H'. apply insert_vector_err; [assumption|]. destruct (Z.eqb_spec row (-1)); lia.
  - intros H'. apply insert_blank_row_err; [assumption|assumption|]. destruct (Z.eqb_spec row (-1)); lia.
  - intros H'. apply replace_vector_err. lia.
  - intros H'. apply replace_constraints_err. lia.
  - intros H'. apply remove_row_err. lia.
  - intros Hne H'. apply swap_err; [assumption|]. lia.
Qed.
Print Assumptions C12_row_edits_checked.

(** Inserting a row then removing it gives the relation back. *)
Theorem C12_insert_remove_inverse : forall (cfg : config) (r r' : relation) (v : vector) (row : Z),
  config_ok cfg -> wf_rel cfg r -> wf_vec cfg v -> vprec v = rprec r -> vsize v = ncols r ->
  0 <= row <= nrows r ->
  osl_relation_insert_vector r v row = Ok r' \/ osl_relation_insert_blank_row r row = Ok r' ->
  osl_relation_remove_row r' row = Ok r.
Proof.
  intros cfg r r' v row Hc W Wv Ep En Hrow H.
  assert (Hk : (if row =? -1 then nrows r else row) = row) by (destruct (Z.eqb_spec row (-1)); lia).
  pose proof (insert_vector_ok r v row W Wv (eq_sym Ep) (eq_sym En)) as H1.
  pose proof (insert_blank_row_ok Hc r row W) as H2. cbv zeta in H1, H2. rewrite Hk in H1, H2.
  rewrite H1, H2 in H by assumption.
  pose proof (wf_nn r W) as Hnn. pose proof (rows_length r W) as Hl.
  assert (G : exists new, r' = with_rows r (ncols r) (insert_at row [new] (rows r)) /\ zlength new = ncols r /\
     Forall (representable cfg (rprec r)) new).
  { destruct H as [H|H]; injection H as <-; eexists; (split; [reflexivity|]).
    - destruct Wv as (_ & Hs & Hv). rewrite <- Ep. split; [lia|assumption].
    - destruct (zero_vec_wf Hc (rprec r) (ncols r) (wf_supp r W) ltac:(lia)) as (_ & Hs & Hv). cbn [vv vsize vprec] in *. auto. }
  destruct G as (new & -> & Hw & Hrep).
  assert (F1 : Forall (fun x => zlength x = ncols r) (insert_at row [new] (rows r))).
  { apply insert_at_Forall; [auto|apply rows_width; assumption]. }
  assert (Hil : zlength (insert_at row [new] (rows r)) = nrows r + 1).
  { rewrite insert_at_length by lia. rewrite zlength_one. lia. }
  rewrite remove_row_ok.
  - rewrite rows_with_rows by (auto; lia). cbn [ncols with_rows].
    f_equal. transitivity (with_rows r (ncols r) (rows r)); [|apply with_rows_id; assumption].
    unfold with_rows; cbn [rtype rprec nout nin nloc npar].
    replace (remove_at row (insert_at row [new] (rows r))) with (rows r); [reflexivity|].
    apply (list_ext []); [rewrite remove_at_length; lia|].
    intros i Hi. rewrite remove_at_nth by lia.
    rewrite !insert_at_nth by lia. rewrite zlength_one.
    replace (i + 1 - 1) with i by lia. bsplit; reflexivity.
  - apply wf_with_rows; auto; [apply wf_supp; assumption|lia|].
    apply insert_at_Forall; [auto|apply rows_rep; assumption].
  - cbn [nrows with_rows]. lia.
Qed.
Print Assumptions C12_insert_remove_inverse.

(** ** C13: column edits *)
Theorem C13_column_edits : forall (cfg : config) (r ins : relation) (c : Z),
  config_ok cfg -> wf_rel cfg r -> wf_rel cfg ins ->
  (0 <= c <= ncols r ->
     osl_relation_insert_blank_column r c = Ok (with_rows r (ncols r + 1) (map (insert_at c [0]) (rows r)))) /\
  (0 <= c <= ncols r -> rprec ins = rprec r -> nrows ins = nrows r ->
     osl_relation_insert_columns r ins c =
       Ok (with_rows r (ncols r + ncols ins)
             (map (fun p => insert_at c (snd p) (fst p)) (combine (rows r) (rows ins))))) /\
  (0 <= c < ncols r ->
     osl_relation_remove_column r c = Ok (with_rows r (ncols r - 1) (map (remove_at c) (rows r)))) /\
  (c < 0 \/ ncols r < c -> osl_relation_insert_blank_column r c = Err) /\
  (c < 0 \/ ncols r < c \/ rprec ins <> rprec r \/ nrows ins <> nrows r ->
     osl_relation_insert_columns r ins c = Err) /\
  (c < 0 \/ ncols r <= c -> osl_relation_remove_column r c = Err).
Proof.
  intros cfg r ins c Hc W Wi. split; [|split; [|split; [|split; [|split]]]]; intros.
  - apply insert_blank_column_ok; auto.
  - rewrite insert_columns_ok by auto. reflexivity.
  - apply remove_column_ok; auto.
  - apply insert_blank_column_err; auto.
  - apply insert_columns_err. lia.
  - apply remove_column_err; auto.
Qed.
Print Assumptions C13_column_edits.

(** The results are well formed, and nothing but the columns changes. *)
Theorem C13_column_edits_well_formed : forall (cfg : config) (r ins r' : relation) (c : Z),
  config_ok cfg -> wf_rel cfg r -> wf_rel cfg ins ->
  osl_relation_insert_blank_column r c = Ok r' \/ osl_relation_insert_columns r ins c = Ok r' \/
  osl_relation_remove_column r c = Ok r' ->
  wf_rel cfg r' /\ nrows r' = nrows r /\ rtype r' = rtype r /\ rprec r' = rprec r /\
  nout r' = nout r /\ nin r' = nin r /\ nloc r' = nloc r /\ npar r' = npar r.
Proof.
  intros cfg r ins r' c Hc W Wi H.
  pose proof (wf_nn r W) as Hnn. pose proof (wf_nn ins Wi) as Hnni. pose proof (wf_supp r W) as Hs.
  pose proof (rows_width r W) as Hw. pose proof (rows_rep r W) as Hr. pose proof (rows_length r W) as Hl.
  pose proof (rows_width ins Wi) as Hwi. pose proof (rows_rep ins Wi) as Hri. pose proof (rows_length ins Wi) as Hli.
  assert (K : forall c' rs, 0 <= c' -> Forall (fun x => zlength x = c') rs -> Forall (Forall (representable cfg (rprec r))) rs ->
     zlength rs = nrows r -> r' = with_rows r c' rs ->
     wf_rel cfg r' /\ nrows r' = nrows r /\ rtype r' = rtype r /\ rprec r' = rprec r /\
     nout r' = nout r /\ nin r' = nin r /\ nloc r' = nloc r /\ npar r' = npar r).
  { intros c' rs F0 F1 F2 F3 ->. split; [apply wf_with_rows; auto; lia|]. repeat split. exact F3. }
  destruct H as [H|[H|H]].
  - destruct (Z_le_dec 0 c) as [e1|e1]; [|rewrite insert_blank_column_err in H by lia; discriminate].
    destruct (Z_le_dec c (ncols r)) as [e2|e2]; [|rewrite insert_blank_column_err in H by lia; discriminate].
    rewrite insert_blank_column_ok in H by auto. injection H as H. symmetry in H.
    eapply K; [| | | |exact H].
    + lia.
    + eapply Forall_rows_map; [|exact Hw]. intros row E. rewrite insert_at_length by lia. rewrite zlength_one. lia.
    + apply Forall_map. eapply Forall_impl; [|exact Hr]. intros row E. apply insert_at_Forall; [|assumption].
      constructor; [|constructor]. apply representable_int; auto. unfold c_int; lia.
    + rewrite zlength_map. assumption.
  - destruct (Z_le_dec 0 c) as [e1|e1]; [|rewrite insert_columns_err in H by lia; discriminate].
    destruct (Z_le_dec c (ncols r)) as [e2|e2]; [|rewrite insert_columns_err in H by lia; discriminate].
    destruct (Z.eq_dec (rprec r) (rprec ins)) as [e3|e3]; [|rewrite insert_columns_err in H by lia; discriminate].
    destruct (Z.eq_dec (nrows r) (nrows ins)) as [e4|e4]; [|rewrite insert_columns_err in H by lia; discriminate].
    rewrite insert_columns_ok in H by auto. injection H as H. symmetry in H.
    eapply K; [| | | |exact H].
    + lia.
    + apply (Forall_znth _ []). rewrite map2_length by lia. intros i Hi. rewrite map2_nth by lia.
      rewrite insert_at_length.
      * rewrite !row_len by (auto; lia). reflexivity.
      * rewrite row_len by (auto; lia). lia.
    + apply (Forall_znth _ []). rewrite map2_length by lia. intros i Hi. rewrite map2_nth by lia.
      apply insert_at_Forall; [rewrite e3; apply (Forall_at _ _ _ _ Hri); lia|apply (Forall_at _ _ _ _ Hr); lia].
    + rewrite map2_length; lia.
  - destruct (Z_le_dec 0 c) as [e1|e1]; [|rewrite remove_column_err in H by lia; discriminate].
    destruct (Z_lt_dec c (ncols r)) as [e2|e2]; [|rewrite remove_column_err in H by lia; discriminate].
    rewrite remove_column_ok in H by auto. injection H as H. symmetry in H.
    eapply K; [| | | |exact H].
    + lia.
    + eapply Forall_rows_map; [|exact Hw]. intros row E. rewrite remove_at_length by lia. lia.
    + apply Forall_map. eapply Forall_impl; [|exact Hr]. intros row E. apply remove_at_Forall; assumption.
    + rewrite zlength_map. assumption.
Qed.
Print Assumptions C13_column_edits_well_formed.

(** A blank column between the tag and the constant is a new dimension that no
    constraint mentions: the new set is the cylinder over the old one. *)
Theorem C13_blank_column_is_cylinder : forall (cfg : config) (r r' : relation) (c : Z),
  config_ok cfg -> wf_rel cfg r -> 1 <= c <= ncols r - 1 ->
  osl_relation_insert_blank_column r c = Ok r' ->
  (forall before v after, zlength before = c - 1 ->
     (in_part r' (before ++ [v] ++ after) <-> in_part r (before ++ after))).
Proof.
  intros cfg r r' c Hc W Hcol H before v after Hb.
  rewrite insert_blank_column_ok in H by (auto; lia). injection H as <-.
  rewrite in_part_with_rows; [|lia|].
  2:{ eapply Forall_rows_map; [|apply rows_width; exact W]. intros row E. rewrite insert_at_length by lia.
      rewrite zlength_one. lia. }
  unfold in_part. rewrite !zlength_app, zlength_one.
  assert (Heq : zlength before + zlength after = ncols r - 2 ->
    (Forall (satisfies (before ++ [v] ++ after)) (map (insert_at c [0]) (rows r)) <->
     Forall (satisfies (before ++ after)) (rows r))).
  { intros Hl. eapply Forall_map_iff; [apply rows_width; exact W|]. intros row Hrow. cbn beta in Hrow.
    apply (satisfies_insert_zeros row before after [v] c); lia. }
  split; intros [H1 H2]; (split; [lia|]); apply Heq; auto; lia.
Qed.
Print Assumptions C13_blank_column_is_cylinder.

(** Inserting then removing a column restores the relation. *)
Theorem C13_insert_remove_inverse : forall (cfg : config) (r r' : relation) (c : Z),
  config_ok cfg -> wf_rel cfg r -> 0 <= c <= ncols r ->
  osl_relation_insert_blank_column r c = Ok r' ->
  osl_relation_remove_column r' c = Ok r.
Proof.
  intros cfg r r' c Hc W Hcol H.
  destruct (C13_column_edits_well_formed cfg r r r' c Hc W W (or_introl H)) as (W' & _).
  rewrite insert_blank_column_ok in H by (auto; lia). injection H as <-.
  rewrite remove_column_ok; [|assumption|cbn [ncols with_rows]; lia].
  pose proof (wf_nn r W) as Hnn.
  rewrite rows_with_rows; [|lia|].
  2:{ eapply Forall_rows_map; [|apply rows_width; exact W]. intros row E. rewrite insert_at_length by lia.
      rewrite zlength_one. lia. }
  cbn [ncols with_rows]. f_equal. transitivity (with_rows r (ncols r) (rows r)); [|apply with_rows_id; assumption].
  replace (ncols r + 1 - 1) with (ncols r) by lia. unfold with_rows; cbn [rtype rprec nout nin nloc npar].
  replace (map (remove_at c) (map (insert_at c [0]) (rows r))) with (rows r); [reflexivity|].
  pose proof (rows_width r W) as Hw. revert Hw. generalize (rows r). induction l as [|row l IH]; intros Hw; [reflexivity|].
  cbn [map]. f_equal; [|apply IH; eapply Forall_inv_tail; eassumption].
  apply Forall_inv in Hw. symmetry. apply (list_ext 0); [rewrite remove_at_length, insert_at_length, zlength_one; rewrite ?insert_at_length, ?zlength_one; lia|].
  assert (Hil : zlength (insert_at c [0] row) = zlength row + 1) by (rewrite insert_at_length, zlength_one; lia).
  intros i Hi. rewrite remove_at_length in Hi by lia.
  rewrite remove_at_nth, !insert_at_nth by lia. rewrite zlength_one. replace (i + 1 - 1) with i by lia. bsplit; reflexivity.
Qed.
Print Assumptions C13_insert_remove_inverse.

(** ** C14: adding constraints intersects *)
Theorem C14_insert_intersects : forall (cfg : config) (r1 r2 r' : relation) (row : Z),
  config_ok cfg -> wf_rel cfg r1 -> wf_rel cfg r2 ->
  osl_relation_insert_constraints r1 r2 row = Ok r' ->
  forall x, in_part r' x <-> in_part r1 x /\ in_part r2 x.
Proof.
  intros cfg r1 r2 r' row Hc W1 W2 H x.
  destruct (Z.eq_dec (rprec r1) (rprec r2)) as [e1|e1]; [|rewrite insert_constraints_err in H by tauto; discriminate].
  destruct (Z.eq_dec (ncols r1) (ncols r2)) as [e2|e2]; [|rewrite insert_constraints_err in H by tauto; discriminate].
  set (k := if row =? -1 then nrows r1 else row) in *.
  destruct (Z_le_dec 0 k) as [e3|e3]; [|rewrite insert_constraints_err in H by (fold k; lia); discriminate].
  destruct (Z_le_dec k (nrows r1)) as [e4|e4]; [|rewrite insert_constraints_err in H by (fold k; lia); discriminate].
  rewrite insert_constraints_ok in H by (auto; fold k; lia). injection H as <-.
  pose proof (wf_nn r1 W1). rewrite in_part_with_rows; [|lia|].
  2:{ apply insert_at_Forall; [rewrite e2|]; apply rows_width; assumption. }
  rewrite Forall_insert_at. unfold in_part. rewrite <- e2. tauto.
Qed.
Print Assumptions C14_insert_intersects.

(** Adding one vector adds one constraint. *)
Theorem C14_insert_vector_constrains : forall (cfg : config) (r r' : relation) (v : vector) (row : Z),
  config_ok cfg -> wf_rel cfg r -> wf_vec cfg v ->
  osl_relation_insert_vector r v row = Ok r' ->
  forall x, in_part r' x <-> in_part r x /\ satisfies x (vv v).
Proof.
  intros cfg r r' v row Hc W Wv H x.
  destruct (Z.eq_dec (rprec r) (vprec v)) as [e1|e1]; [|rewrite insert_vector_err in H by tauto; discriminate].
  destruct (Z.eq_dec (ncols r) (vsize v)) as [e2|e2]; [|rewrite insert_vector_err in H by tauto; discriminate].
  set (k := if row =? -1 then nrows r else row) in *.
  destruct (Z_le_dec 0 k) as [e3|e3]; [|rewrite insert_vector_err in H by (auto; fold k; lia); discriminate].
  destruct (Z_le_dec k (nrows r)) as [e4|e4]; [|rewrite insert_vector_err in H by (auto; fold k; lia); discriminate].
  rewrite insert_vector_ok in H by (auto; fold k; lia). injection H as <-.
  pose proof (wf_nn r W). destruct Wv as (_ & Hs & _). rewrite in_part_with_rows; [|lia|].
  2:{ apply insert_at_Forall; [|apply rows_width; assumption]. repeat constructor. lia. }
  rewrite Forall_insert_at. unfold in_part. split.
  - intros (H1 & H2 & H3). apply Forall_inv in H2. auto.
  - intros ((H1 & H2) & H3). auto.
Qed.
Print Assumptions C14_insert_vector_constrains.

(** Concatenating constraints gives the intersection (as a set of points) ... *)
Theorem C14_concat_intersects : forall (cfg : config) (r1 r2 : relation) (rest1 rest2 : list relation),
  config_ok cfg -> wf_rel cfg r1 -> wf_rel cfg r2 -> rprec r1 = rprec r2 -> ncols r1 = ncols r2 ->
  exists r', osl_relation_concat_constraints (r1 :: rest1) (r2 :: rest2) = Ok [r'] /\
    rows r' = rows r1 ++ rows r2 /\ ncols r' = ncols r1 /\ rprec r' = rprec r1 /\
    forall x, in_part r' x <-> in_part r1 x /\ in_part r2 x.
Proof.
  intros cfg r1 r2 n1 n2 Hc W1 W2 Ep En. rewrite concat_constraints_ok by auto.
  eexists. split; [reflexivity|].
  pose proof (wf_nn r1 W1). pose proof (rows_width r1 W1) as Hw1. pose proof (rows_width r2 W2) as Hw2.
  assert (Hw : Forall (fun row => zlength row = ncols r1) (rows r1 ++ rows r2)).
  { apply Forall_app. split; [assumption|]. rewrite En. assumption. }
  assert (Er : rows (undef_rel (rprec r1) (ncols r1) (rows r1 ++ rows r2)) = rows r1 ++ rows r2).
  { exact (rows_with_rows (mkrel (-1) (rprec r1) 0 0 (-1) (-1) (-1) (-1) []) (ncols r1) _ ltac:(lia) Hw). }
  split; [exact Er|]. split; [reflexivity|]. split; [reflexivity|].
  intros x. unfold in_part. rewrite Er. cbn [ncols undef_rel]. rewrite <- En, Forall_app. tauto.
Qed.
Print Assumptions C14_concat_intersects.

(** ... but the type and the numbers of dimensions of the operands are lost, so
    the result does not relate anything any more. *)
Theorem C14_concat_keeps_attributes_refuted : exists (r1 r2 r' : relation),
  wf_rel lp64_debug r1 /\ wf_rel lp64_debug r2 /\
  @osl_relation_concat_constraints lp64_debug [r1] [r2] = Ok [r'] /\
  relates r1 [1] [] [] /\ relates r2 [1] [] [] /\
  rtype r' <> rtype r1 /\ forall out inp par, ~ relates r' out inp par.
Proof.
  set (r1 := mkrel TYPE_DOMAIN 64 1 3 1 0 0 0 [[1; 1; 0]]).
  set (r2 := mkrel TYPE_DOMAIN 64 1 3 1 0 0 0 [[1; -1; 5]]).
  exists r1, r2, (mkrel (-1) 64 2 3 (-1) (-1) (-1) (-1) [[1; 1; 0]; [1; -1; 5]]).
  split; [unfold wf_rel, r1; cbn [rtype rprec nrows ncols nout nin nloc npar rm]; wf_lit|].
  split; [unfold wf_rel, r2; cbn [rtype rprec nrows ncols nout nin nloc npar rm]; wf_lit|].
  split; [reflexivity|].
  assert (G : forall r, (r = r1 \/ r = r2) -> relates r [1] [] []).
  { intros r [-> | ->]; (split; [reflexivity|]; split; [reflexivity|]; split; [reflexivity|]; exists [];
      split; [reflexivity|]; split; [reflexivity|]); cbn; repeat constructor; cbn; lia. }
  split; [apply G; auto|]. split; [apply G; auto|]. split; [discriminate|].
  intros out inp par (H & _). pose proof (zlength_nonneg out). cbn [nout] in H. lia.
Qed.
Print Assumptions C14_concat_keeps_attributes_refuted.

(** Incompatible widths are refused. *)
Theorem C14_concat_checked : forall (cfg : config) (r1 r2 : relation) (rest1 rest2 : list relation),
  ncols r1 <> ncols r2 -> osl_relation_concat_constraints (r1 :: rest1) (r2 :: rest2) = Err.
Proof.
  intros cfg r1 r2 n1 n2 H. unfold osl_relation_concat_constraints.
  destruct (Z.eqb_spec (ncols r1) (ncols r2)); [contradiction|reflexivity].
Qed.
Print Assumptions C14_concat_checked.

(** ** C15: the order of the constraints does not matter *)
Theorem C15_swap_same_set : forall (cfg : config) (r r' : relation) (i j : Z),
  config_ok cfg -> wf_rel cfg r -> osl_relation_swap_constraints r i j = Ok r' ->
  (forall x, in_part r' x <-> in_part r x) /\
  (forall out inp par, relates r' out inp par <-> relates r out inp par).
Proof.
  intros cfg r r' i j Hc W H.
  assert (K : forall x, in_part r' x <-> in_part r x).
  { intros x. destruct (Z.eq_dec i j) as [e|e].
    { unfold osl_relation_swap_constraints in H. rewrite e, Z.eqb_refl in H. injection H as <-. tauto. }
    destruct (Z_le_dec 0 i) as [e1|e1]; [|rewrite swap_err in H by (auto; lia); discriminate].
    destruct (Z_lt_dec i (nrows r)) as [e2|e2]; [|rewrite swap_err in H by (auto; lia); discriminate].
    destruct (Z_le_dec 0 j) as [e3|e3]; [|rewrite swap_err in H by (auto; lia); discriminate].
    destruct (Z_lt_dec j (nrows r)) as [e4|e4]; [|rewrite swap_err in H by (auto; lia); discriminate].
    rewrite swap_ok' in H by auto. injection H as <-. pose proof (wf_nn r W).
    pose proof (rows_length r W) as Hl.
    rewrite in_part_with_rows; [|lia|apply Forall_swap_at; [lia|lia|apply rows_width; assumption]].
    rewrite Forall_swap_at by lia. reflexivity. }
  split; [exact K|]. intros out inp par.
  destruct (C12_row_edits_well_formed cfg r r r' (mkvec 64 0 []) i j Hc W W) as (_ & Ec & _ & _ & E1 & E2 & E3 & E4).
  { unfold wf_vec; cbn [vprec vsize vv]; wf_lit. }
  { do 6 right. exact H. }
  unfold relates. rewrite E1, E2, E3, E4. setoid_rewrite K. reflexivity.
Qed.
Print Assumptions C15_swap_same_set.

Theorem C15_swap_involutive : forall (cfg : config) (r r' : relation) (i j : Z),
  config_ok cfg -> wf_rel cfg r -> osl_relation_swap_constraints r i j = Ok r' ->
  osl_relation_swap_constraints r' i j = Ok r /\ osl_relation_swap_constraints r' j i = Ok r.
Proof.
  intros cfg r r' i j Hc W H.
  assert (Wv : wf_vec cfg (mkvec 64 0 [])) by (unfold wf_vec; cbn [vprec vsize vv]; wf_lit).
  destruct (C12_row_edits_well_formed cfg r r r' (mkvec 64 0 []) i j Hc W W Wv) as (W' & Ec & _).
  { do 6 right. exact H. }
  destruct (Z.eq_dec i j) as [e|e].
  { unfold osl_relation_swap_constraints in *. rewrite e, Z.eqb_refl in *. injection H as <-. auto. }
  destruct (Z_le_dec 0 i) as [e1|e1]; [|rewrite swap_err in H by (auto; lia); discriminate].
  destruct (Z_lt_dec i (nrows r)) as [e2|e2]; [|rewrite swap_err in H by (auto; lia); discriminate].
  destruct (Z_le_dec 0 j) as [e3|e3]; [|rewrite swap_err in H by (auto; lia); discriminate].
  destruct (Z_lt_dec j (nrows r)) as [e4|e4]; [|rewrite swap_err in H by (auto; lia); discriminate].
  rewrite swap_ok' in H by auto. injection H as E. pose proof (wf_nn r W).
  pose proof (rows_length r W) as Hl.
  assert (Er : rows r' = swap_at [] i j (rows r)).
  { rewrite <- E. apply rows_with_rows; [lia|]. apply Forall_swap_at; [lia|lia|]. apply rows_width; assumption. }
  assert (Hsl : forall a b, zlength (swap_at [] a b (rows r)) = zlength (rows r)).
  { intros a b. unfold swap_at. rewrite !zlength_list_set. reflexivity. }
  assert (Hn : nrows r' = nrows r).
  { rewrite <- (rows_length r' W'), Er, Hsl. assumption. }
  assert (G : forall a b, (a = i /\ b = j) \/ (a = j /\ b = i) -> swap_at [] a b (swap_at [] i j (rows r)) = rows r).
  { intros a b Hab. apply (list_ext []).
    - unfold swap_at. rewrite !zlength_list_set. reflexivity.
    - intros n Hn'. unfold swap_at in *. rewrite !zlength_list_set in Hn'.
      repeat first [rewrite znth_list_set by (rewrite ?zlength_list_set; lia) | lia].
      bsplit; try reflexivity; try (f_equal; lia); congruence. }
  assert (Fin : forall a b, (a = i /\ b = j) \/ (a = j /\ b = i) -> osl_relation_swap_constraints r' a b = Ok r).
  { intros a b Hab. rewrite swap_ok' by (auto; lia). rewrite Er, G by assumption. f_equal.
    rewrite Ec. transitivity (with_rows r (ncols r) (rows r)); [|apply with_rows_id; assumption].
    rewrite <- E. reflexivity. }
  split; apply Fin; auto.
Qed.
Print Assumptions C15_swap_involutive.

(** Constraints inserted anywhere give the same set. *)
Theorem C15_insert_position_irrelevant : forall (cfg : config) (r1 r2 a b : relation) (i j : Z),
  config_ok cfg -> wf_rel cfg r1 -> wf_rel cfg r2 ->
  osl_relation_insert_constraints r1 r2 i = Ok a -> osl_relation_insert_constraints r1 r2 j = Ok b ->
  forall x, in_part a x <-> in_part b x.
Proof.
  intros cfg r1 r2 a b i j Hc W1 W2 Ha Hb x.
  rewrite (C14_insert_intersects cfg r1 r2 a i Hc W1 W2 Ha), (C14_insert_intersects cfg r1 r2 b j Hc W1 W2 Hb).
  reflexivity.
Qed.
Print Assumptions C15_insert_position_irrelevant.
