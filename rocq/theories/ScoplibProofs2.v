(** * ScoplibProofs2: the words of relations, access lists, bodies, statements and scops in the SCoPLib format *)
From Coq Require Import ZifyBool ZifyNat.
From Verif Require Import Base IntModel VectorModel RelationModel UtilModel StringsModel RelTextModel ExtModel ScopModel CloneModel
  Spec RelSpec TextSpec LoopLemmas IntProofs TextInt VectorProofs RelationProofs UtilProofs RelTextProofs PropStrings RelTextProofs2
  PropRelText ScoplibModel ScoplibSpec ScoplibProofs.

Ltac nonl := repeat first [apply no_nl_app; split | assumption | apply no_nl_nil | apply print_Z_no_nl
                          | apply no_nl_firstn | (apply no_nl_cons; [reflexivity|])
                          | (apply no_nl_lit; reflexivity)].
Section PARTS.
Context {cfg : config}.

Lemma column_fields_scoplib_no_nl r strings : Forall no_nl strings -> forall i, no_nl (column_fields_scoplib r i strings).
Proof.
  induction 1 as [|s l Hs Hl IH]; intros i; [nonl|]. cbn [column_fields_scoplib].
  apply no_nl_app. split; [|apply IH]. destruct (_ || _); [|nonl]. apply no_nl_app. split; [|destruct (_ || _); nonl].
  unfold column_field. apply no_nl_app. split; [|apply no_nl_app; split].
  - intros Hi. apply repeat_spec in Hi. discriminate.
  - destruct (_ <=? _); nonl.
  - intros Hi. apply repeat_spec in Hi. discriminate.
Qed.
Lemma column_string_scoplib_closed r strings c : Forall no_nl strings ->
  osl_relation_column_string_scoplib r strings = Ok c -> closed (snp c) [].
Proof.
  intros Hs H. unfold osl_relation_column_string_scoplib in H. pose proof H as H'. apply buf_store_eq in H. subst c.
  assert (E : snp (lit "#" ++ column_fields_scoplib r 0 strings ++ [c_nl]) = c_hash :: column_fields_scoplib r 0 strings ++ [c_nl]).
  { unfold snp. apply firstn_all2. unfold buf_store, MAX_STRING, zlength in H'.
    destruct (Z.ltb_spec (Z.of_nat (length (lit "#" ++ column_fields_scoplib r 0 strings ++ [c_nl]))) 2048); [|discriminate].
    cbn [lit list_ascii_of_string app List.length] in *. lia. }
  rewrite E. apply closed_comment. now apply column_fields_scoplib_no_nl.
Qed.
Lemma zero_cells_closed n : closed (zero_cells n) (numbers (repeat 0 n)).
Proof. induction n as [|n IH]; [apply closed_nil|]. cbn [zero_cells repeat]. apply (closed_app _ (numbers [0])); [apply closed_zero|exact IH]. Qed.
Lemma fake_row_closed n : 0 <= n -> closed (zero_cell ++ one_cell ++ zero_cells (Z.to_nat n) ++ ln (lit "    0  ## fakeiter == 0"))
  (numbers ([0; 1] ++ zeros n ++ [0])).
Proof.
  intros Hn. unfold zeros. change ([0; 1] ++ ?l) with ([0] ++ [1] ++ l). rewrite !numbers_app.
  apply closed_app; [apply closed_zero|]. apply closed_app; [apply closed_one|]. apply closed_app; [apply zero_cells_closed|].
  intros b. reflexivity.
Qed.
Lemma mat_length r : wf_rel cfg r -> 0 < ncols r -> zlength (rm r) = nrows r.
Proof.
  intros W Hc. pose proof (wf_mat r W) as (M1 & M2 & M3 & M4). destruct (Z.eq_dec (nrows r) 0) as [E|E].
  - rewrite M3 by tauto. now rewrite E.
  - destruct (M4 ltac:(lia) ltac:(lia)). assumption.
Qed.

(** What a part prints after its rank. *)
Definition part_numbers (nth fake : bool) (part : Z) (r : relation) : list Z :=
  (if nth then [part] else []) ++
  (if rtype r =? TYPE_DOMAIN then domain_numbers fake r
   else if (rtype r =? TYPE_READ) || (rtype r =? TYPE_WRITE) then concat (access_rows fake r)
   else scattering_numbers fake r).
Definition fake_fits (fake : bool) (r : relation) : Prop :=
  fake = true -> (rtype r = TYPE_DOMAIN -> nrows r = 0) /\ (rtype r <> TYPE_READ -> rtype r <> TYPE_WRITE -> rtype r <> TYPE_DOMAIN -> rtype r = TYPE_SCATTERING /\ nrows r = 1).

Lemma indices_all {A} (g : list Z -> A) r : wf_rel cfg r -> 0 < ncols r ->
  map (fun k => g (znth [] (rm r) k)) (indices 0 (Z.to_nat (nrows r - 0))) = map g (rm r).
Proof. intros W C. rewrite <- (mat_length r W C). rewrite indices_map by lia. reflexivity. Qed.

Lemma removelast_after fake r row : covered r -> zlength row = ncols r ->
  after_outputs fake r (removelast row ++ [0]) = removelast (after_outputs fake r row) ++ [0].
Proof.
  intros (C1 & C2 & C3 & C4 & C5) L. destruct (exists_last (l := row)) as (l & x & ->); [intros ->; cbn in L; lia|].
  rewrite removelast_last. rewrite zlength_app, zlength_one in L. unfold after_outputs.
  rewrite !(skipn_app _ l). unfold zlength in L.
  replace (Z.to_nat (1 + nout r) - Datatypes.length l)%nat with 0%nat by lia.
  replace (Z.to_nat (1 + nout r + nin r) - Datatypes.length l)%nat with 0%nat by lia. cbn [skipn].
  rewrite !firstn_app, !skipn_length. replace (Z.to_nat (nin r) - (Datatypes.length l - Z.to_nat (1 + nout r)))%nat with 0%nat by lia.
  cbn [firstn]. rewrite !app_nil_r, !app_assoc, removelast_last. now rewrite <- !app_assoc.
Qed.

Lemma access_shown fake r : wf_rel cfg r -> covered r ->
  concat (map (fun i => (if i =? (if nrows r =? 1 then 0 else 1) then array_number r else 0) :: after_outputs fake r (shown_row r i))
     (indices (if nrows r =? 1 then 0 else 1) (Z.to_nat (nrows r - (if nrows r =? 1 then 0 else 1))))) = concat (access_rows fake r).
Proof.
  intros W C. pose proof C as (C1 & C2 & C3 & C4 & C5). pose proof (mat_length r W ltac:(lia)) as L. unfold access_rows, shown_row.
  destruct (rm r) as [|row [|row' rows]] eqn:E.
  - rewrite <- L. reflexivity.
  - rewrite <- L. cbn [zlength Datatypes.length]. change (zlength [row] =? 1) with true. cbv iota. change (Z.to_nat (zlength [row] - 0)) with 1%nat.
    cbn [indices map concat]. rewrite app_nil_r. cbn [Z.eqb]. rewrite app_nil_r. f_equal. change (znth [] [row] 0) with row. apply removelast_after; [exact C|].
    destruct (row_of r 0 W ltac:(lia)) as [R _]; [rewrite <- L; unfold zlength; cbn; lia|]. rewrite E in R. exact R.
  - assert (Hn : nrows r = 2 + zlength rows) by (rewrite <- L, !zlength_cons; lia). pose proof (zlength_nonneg rows).
    destruct (Z.eqb_spec (nrows r) 1) as [X|_]; [lia|]. f_equal.
    replace (Z.to_nat (nrows r - 1)) with (S (Z.to_nat (nrows r - 2))) by lia. cbn [indices map Z.eqb]. change (Z.eqb 1 1) with true. cbv iota.
    change (znth [] (row :: row' :: rows) 1) with row'. f_equal. change (1 + 1) with 2.
    rewrite (map_ext_in _ (fun i => 0 :: after_outputs fake r (znth [] (row :: row' :: rows) i))).
    + replace (nrows r - 2) with (zlength (row :: row' :: rows) - 2) by lia.
      rewrite (indices_map [] (fun row => 0 :: after_outputs fake r row)) by lia. reflexivity.
    + intros i Hi. assert (2 <= i).
      { clear - Hi. revert Hi. generalize (Z.to_nat (nrows r - 2)). intros n. assert (X : forall k, 2 <= k -> In i (indices k n) -> 2 <= i); [|apply (X 2); lia]. induction n as [|n IH]; intros k Hk Hi; cbn [indices In] in Hi; [destruct Hi|].
        destruct Hi as [->|Hi]; [lia|]. apply (IH (k + 1)); [lia|exact Hi]. }
      destruct (Z.eqb_spec i 1); [lia|reflexivity].
Qed.

Lemma part_closed access nb nth fake u r part n t : wf_rel cfg r -> covered r -> good_names n -> fake_fits fake r ->
  access = (rtype r =? TYPE_READ) || (rtype r =? TYPE_WRITE) ->
  scoplib_part nb access nth fake u r part n = Ok t -> closed t (numbers (part_numbers nth fake part r)).
Proof.
  intros W C G F A H. pose proof C as (C1 & C2 & C3 & C4 & C5). unfold scoplib_part in H. inv_bind H.
  pose proof (relation_strings_no_nl r n v G E) as Hs. destruct G as (_ & _ & _ & _ & Ha). 
  inv_bind H. destruct v0 as [head start]. inv_bind H. apply Ok_inj in H. subst t.
  apply closed_app0. { destruct (1 <? nb); [|apply closed_nil]. rewrite app_assoc. change (lit "# Union part No." ++ print_Z part) with (c_hash :: (lit " Union part No." ++ print_Z part)).
    apply closed_comment. apply no_nl_app. split; [nonl|apply print_Z_no_nl]. }
  unfold part_numbers. rewrite numbers_app. apply closed_app. { destruct nth; [apply closed_Z; now right|apply closed_nil]. }
  destruct (Z.eqb_spec (rtype r) TYPE_DOMAIN) as [T|T].
  - subst access. rewrite T in E0. change ((TYPE_DOMAIN =? TYPE_READ) || (TYPE_DOMAIN =? TYPE_WRITE)) with false in E0. cbn [negb] in E0. inv_bind E0. apply Ok_inj in E0.
    assert (closed v1 []). { destruct (0 <? nrows r); [|apply Ok_inj in E2; subst; apply closed_nil]. inv_bind E2. apply Ok_inj in E2. subst v1. eapply column_string_scoplib_closed; eassumption. }
    injection E0 as <- <-. rewrite T in E1. change ((TYPE_DOMAIN =? TYPE_READ) || (TYPE_DOMAIN =? TYPE_WRITE)) with false in E1.
    assert (R : closed v0 (numbers (concat (map (fun i => without_inputs r (znth [] (rm r) i)) (indices 0 (Z.to_nat (nrows r - 0))))))).
    { eapply rows_closed; [| | | | |exact E1]; try assumption; [|right; rewrite T; discriminate|lia]. intros i t Hi Ht. eapply row_domain; eassumption. }
    rewrite (indices_all (without_inputs r)) in R by (assumption || lia). rewrite <- (app_assoc (scoplib_header fake r)). unfold domain_numbers. unfold scoplib_header. rewrite T, Z.eqb_refl. destruct fake.
    + destruct (F eq_refl) as [Fd _]. specialize (Fd T). assert (rm r = []) as Em. { pose proof (mat_length r W ltac:(lia)) as L. rewrite Fd in L. destruct (rm r); [reflexivity|]. rewrite zlength_cons in L. pose proof (zlength_nonneg l0). lia. }
      rewrite Em in R. cbn in R. rewrite Fd. cbn [Z.add]. rewrite <- (app_assoc (size_line _ _)). rewrite numbers_app. apply closed_app; [apply closed_size|].
      rewrite <- (app_nil_r (numbers _)). apply closed_app; [apply fake_row_closed; lia|]. apply closed_app0; assumption.
    + rewrite numbers_app. apply closed_app; [apply closed_size|]. apply closed_app0; assumption.
  - rewrite <- A. destruct access.
    + cbn [negb] in E0. apply Ok_inj in E0. injection E0 as <- <-. cbn [app]. rewrite <- (access_shown fake r W C).
      eapply rows_closed; [| | | | |exact E1]; try assumption; [| |lia].
      * intros i t Hi Ht. eapply row_access; try eassumption. destruct (nrows r =? 1); lia.
      * right. intros X. rewrite X in A. discriminate.
    + cbn [negb] in E0. inv_bind E0. apply Ok_inj in E0.
      assert (closed v1 []). { destruct (0 <? nrows r); [|apply Ok_inj in E2; subst; apply closed_nil]. inv_bind E2. apply Ok_inj in E2. subst v1. eapply column_string_scoplib_closed; eassumption. }
      injection E0 as <- <-. rewrite <- (app_assoc (scoplib_header fake r)). unfold scattering_numbers. unfold scoplib_header. destruct (Z.eqb_spec (rtype r) TYPE_DOMAIN); [contradiction|]. destruct fake.
      * destruct (F eq_refl) as [_ Fs]. destruct (Fs) as [Ts Nr]; [intros X; rewrite X in A; discriminate|intros X; rewrite X in A; discriminate|assumption|].
        rewrite numbers_app. apply closed_app; [apply closed_size|]. apply closed_app0; [assumption|]. eapply rows_scattering_fake; eassumption.
      * rewrite !Z.add_0_r, app_nil_r. rewrite numbers_app. apply closed_app; [apply closed_size|]. apply closed_app0; [assumption|].
        rewrite <- (indices_all (fun row => first_cell row :: after_outputs false r row)) by (assumption || lia).
        eapply rows_closed; [| | | | |exact E1]; try assumption; [|now left|lia]. intros i t Hi Ht. eapply row_other; eassumption.
Qed.

(** ** Unions *)
Definition access_type (t : Z) : bool := (t =? TYPE_READ) || (t =? TYPE_WRITE).
(** The relations of a union that can be shown: well formed, dimensions covering the columns, access parts together. *)
Definition showable (fake : bool) (t : Z) (r : relation) : Prop :=
  wf_rel cfg r /\ covered r /\ fake_fits fake r /\ access_type (rtype r) = access_type t.
Fixpoint parts_numbers (nth fake : bool) (k : Z) (u : list relation) : list Z :=
  match u with [] => [] | r :: tl => part_numbers nth fake k r ++ parts_numbers nth fake (k + 1) tl end.
Lemma parts_closed access nb nth fake n t0 : good_names n -> access = access_type t0 -> forall u part t, Forall (showable fake t0) u ->
  scoplib_parts nb access nth fake u part n = Ok t -> closed t (numbers (parts_numbers nth fake part u)).
Proof.
  intros G A. induction u as [|r u IH]; intros part t H E; cbn [scoplib_parts parts_numbers] in *.
  - apply Ok_inj in E. subst t. apply closed_nil.
  - inversion H as [|? ? (H1 & H2 & H3 & H4) Hu]; subst. inv_bind E. inv_bind E. apply Ok_inj in E. subst t. rewrite numbers_app. apply closed_app.
    + eapply part_closed; [| | | | |exact E0]; try assumption. symmetry. exact H4.
    + now apply IH.
Qed.
Lemma relation_closed u on nth fake t t0 : u <> [] -> has_type t0 u = true -> Forall (showable fake t0) u -> one_line_names on ->
  osl_relation_spprint_scoplib u on nth fake = Ok t ->
  closed t (numbers ((if 1 <? zlength u then [zlength u] else []) ++ parts_numbers nth fake 1 u)).
Proof.
  intros Hn Ht H O E. destruct u as [|r u]; [congruence|]. cbn [has_type] in Ht. apply Z.eqb_eq in Ht.
  unfold osl_relation_spprint_scoplib, osl_relation_spprint_polylib_scoplib in E. inv_bind E.
  assert (Hg : good_names v).
  { destruct on as [n|]; [|now apply relation_names_good in E0]. injection E0 as ->. exact O. }
  inv_bind E. apply Ok_inj in E. subst t. rewrite nb_components_length. rewrite numbers_app. apply closed_app.
  - destruct (1 <? zlength (r :: u)); [|apply closed_nil]. change ([c_nl] ++ ?x) with (c_nl :: x).
    replace (lit "# Union with " ++ print_Z (zlength (r :: u)) ++ lit " parts" ++ c_nl :: print_Z (zlength (r :: u)) ++ [c_nl])
      with ((c_hash :: (lit " Union with " ++ print_Z (zlength (r :: u)) ++ lit " parts") ++ [c_nl]) ++ print_Z (zlength (r :: u)) ++ [c_nl])
      by (cbn [lit list_ascii_of_string app]; rewrite <- !app_assoc; reflexivity).
    apply closed_app0; [|apply closed_Z; now right]. apply closed_comment. nonl.
  - eapply parts_closed; [exact Hg| |exact H|exact E1]. now rewrite Ht.
Qed.
End PARTS.
