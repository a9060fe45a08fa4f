(** * Property C49: printing in the SCoPLib format *)
From Coq Require Import ZifyBool ZifyNat.
From Verif Require Import Base IntModel VectorModel RelationModel UtilModel StringsModel RelTextModel ExtModel ScopModel CloneModel
  Spec RelSpec TextSpec LoopLemmas IntProofs TextInt VectorProofs RelationProofs UtilProofs RelTextProofs PropStrings RelTextProofs2
  PropRelText ExtSpec ExtProofs PropExt2 PropExt3 SaveProofs4 ScopSpec PropScop CloneSpec PropScoplib
  ScoplibModel ScoplibSpec ScoplibProofs ScoplibProofs2 ScoplibProofs3.

(** ** What is written *)
(** A union of domains: the numbers of the text are those of the domains without their input columns, after their sizes and ranks. *)
Theorem C49_domain : forall (cfg : config) (u : list relation) (on : option names) (fake : bool) (text : str),
  u <> [] -> Forall (shown_relation (cfg := cfg) TYPE_DOMAIN) u -> (fake = true -> Forall (fun r => nrows r = 0) u) -> one_line_names on ->
  osl_relation_spprint_scoplib u on true fake = Ok text -> words text = numbers (union_numbers fake u).
Proof. intros. eapply closed_words, domain_closed; eassumption. Qed.
Print Assumptions C49_domain.
(** A context or a scattering: without its output columns. *)
Theorem C49_matrix : forall (cfg : config) (r : relation) (on : option names) (fake : bool) (text : str) (t : Z),
  shown_relation (cfg := cfg) t r -> t = TYPE_SCATTERING \/ t = TYPE_CONTEXT -> (fake = true -> t = TYPE_SCATTERING /\ nrows r = 1) ->
  one_line_names on -> osl_relation_spprint_scoplib [r] on false fake = Ok text -> words text = numbers (scattering_numbers fake r).
Proof.
  intros cfg r on fake text t H H0 H1 H2 H3. apply closed_words. replace (scattering_numbers fake r) with (flat_map (scattering_numbers fake) [r]) by (cbn [flat_map]; apply app_nil_r).
  eapply matrix_closed; eassumption.
Qed.
Print Assumptions C49_matrix.
(** The accesses of a statement: one matrix for the reads, one for the writes. *)
Theorem C49_accesses : forall (cfg : config) (l : list (list relation)) (on : option names) (fake : bool) (text : str),
  l <> [] ->
  Forall (fun u => exists r, u = [r] /\ (shown_relation (cfg := cfg) TYPE_READ r \/ shown_relation (cfg := cfg) TYPE_WRITE r) /\ 1 <= nrows r) l ->
  one_line_names on -> osl_relation_list_pprint_access_array_scoplib l on fake = Ok text ->
  words text = numbers (accesses_numbers TYPE_READ fake l) ++ numbers (accesses_numbers TYPE_WRITE fake l).
Proof. intros. eapply closed_words, accesses_closed; eassumption. Qed.
Print Assumptions C49_accesses.
Theorem C49_statements : forall (cfg : config) (l : list statement) (on : option names) (text : str),
  Forall (shown_statement (cfg := cfg)) l -> one_line_names on ->
  osl_statement_pprint_scoplib l on = Ok text -> words text = flat_map statement_words l.
Proof.
  intros cfg l on text H O E. unfold osl_statement_pprint_scoplib in E. inv_bind E.
  assert (O' : one_line_names (Some v)). { destruct on as [n|]; [injection E0 as <-; exact O|]. unfold osl_statement_names in E0. inv_bind E0. now apply names_of_ok in E0. }
  eapply closed_words, statements_closed; eassumption.
Qed.
Print Assumptions C49_statements.
(** The file of a scop.  The title lines are comments. *)
Theorem C49_scop : forall (cfg : config) (l : list scop) (text : str),
  Forall (shown_scop (cfg := cfg)) l -> osl_scop_print_scoplib l = Ok text -> words text = flat_map scop_words l.
Proof.
  intros cfg l text H E. unfold osl_scop_print_scoplib in E. destruct l as [|s l]; [apply Ok_inj in E; subst; reflexivity|].
  inv_bind E. destruct v; [|discriminate]. cbn [negb] in E. inv_bind E. inv_bind E. apply Ok_inj in E. subst text.
  assert (O : one_line_names (Some v)). { unfold osl_scop_names in E1. inv_bind E1. now apply names_of_ok in E1. }
  apply closed_words.
  replace (lit "# [File generated by the OpenScop Library " ++ release ++ ln (lit "]") ++ ln (lit "# [SCoPLib format]") ++ v0)
    with (ln (c_hash :: lit " [File generated by the OpenScop Library " ++ release ++ lit "]") ++ ln (lit "# [SCoPLib format]") ++ v0) by reflexivity.
  apply closed_app0; [apply (closed_title (lit " [File generated by the OpenScop Library " ++ release ++ lit "]")); nonl|].
  apply closed_app0; [apply (closed_title (lit " [SCoPLib format]")); nonl|].
  clear E0 E1. revert v0 H E2. generalize (s :: l). clear s l. induction l as [|s l IH]; intros t H E; cbn [print_all flat_map] in *; [apply Ok_inj in E; subst; apply closed_nil|].
  inversion H as [|? ? Hs Hl]; subst. inv_bind E. inv_bind E. apply Ok_inj in E. subst t. apply closed_app; [eapply scop_closed; eassumption|now apply IH].
Qed.
Print Assumptions C49_scop.
(** A scop the format cannot express is not printed: the program stops. *)
Theorem C49_incompatible : forall (cfg : config) (l : list scop), l <> [] ->
  osl_scop_check_compatible_scoplib l = Ok false \/ osl_scop_check_compatible_scoplib l = Err -> osl_scop_print_scoplib l = Err.
Proof. intros cfg l Hl H. unfold osl_scop_print_scoplib. destruct l as [|s l]; [congruence|]. destruct H as [->| ->]; reflexivity. Qed.
Print Assumptions C49_incompatible.

(** ** Sizes *)
Lemma sized_intro rows columns (m : list (list Z)) l : l = [rows; columns] ++ concat m -> zlength m = rows -> Forall (fun row => zlength row = columns) m -> sized_matrix l.
Proof. intros. exists rows, columns, m. auto. Qed.
Section SIZES.
Context {cfg : config}.
Lemma rows_sized r : wf_rel cfg r -> covered r -> Forall (fun row => zlength row = ncols r) (rm r).
Proof.
  intros W C. pose proof C as (C1 & C2 & C3 & C4 & C5). apply Forall_forall. intros row Hin. apply (In_nth _ _ []) in Hin as (k & Hk & <-).
  pose proof (mat_length r W ltac:(lia)) as L. destruct (row_of r (Z.of_nat k) W) as [R _]; [lia|unfold zlength in L; lia|]. unfold znth in R. now rewrite Nat2Z.id in R.
Qed.
Lemma without_inputs_length r row : covered r -> zlength row = ncols r -> zlength (without_inputs r row) = ncols r - nin r.
Proof.
  intros (C1 & C2 & C3 & C4 & C5) L. unfold without_inputs, zlength in *. rewrite app_length, firstn_length, skipn_length. lia.
Qed.
Lemma after_outputs_length fake r row : covered r -> zlength row = ncols r -> zlength (after_outputs fake r row) = ncols r - nout r - 1 + (if fake then 1 else 0).
Proof.
  intros (C1 & C2 & C3 & C4 & C5) L. unfold after_outputs, zlength in *. rewrite !app_length, firstn_length, !skipn_length.
  destruct fake; cbn [Datatypes.length]; lia.
Qed.
Lemma zeros_length n : 0 <= n -> zlength (zeros n) = n.
Proof. intros H. unfold zeros, zlength. rewrite repeat_length. lia. Qed.
End SIZES.
(** The sizes that are announced are those of the rows that follow. *)
Theorem C49_sizes : forall (cfg : config) (r : relation) (t : Z), shown_relation (cfg := cfg) t r ->
  sized_matrix (domain_numbers false r) /\ sized_matrix (scattering_numbers false r) /\
  (nout r = 0 -> nloc r = 0 -> sized_matrix (domain_numbers true r)) /\
  (nrows r = 1 -> nout r = 1 -> sized_matrix (scattering_numbers true r)).
Proof.
  intros cfg r t H. apply shown_covered in H as (W & C & T). pose proof C as (C1 & C2 & C3 & C4 & C5).
  pose proof (rows_sized r W C) as R. pose proof (mat_length r W ltac:(lia)) as L. split; [|split; [|split]].
  - apply (sized_intro (nrows r) (ncols r - nin r) (map (without_inputs r) (rm r))); [reflexivity| |].
    + unfold zlength in *. now rewrite map_length.
    + apply Forall_map. revert R. apply Forall_impl. intros row Hr. now apply without_inputs_length.
  - apply (sized_intro (nrows r) (ncols r - nout r) (map (fun row => first_cell row :: after_outputs false r row) (rm r))).
    + unfold scattering_numbers. now rewrite app_nil_r, !Z.add_0_r.
    + unfold zlength in *. now rewrite map_length.
    + apply Forall_map. revert R. apply Forall_impl. intros row Hr. rewrite zlength_cons, after_outputs_length by assumption. lia.
  - intros No Nl. apply (sized_intro 1 (ncols r - nin r + 1) [[0; 1] ++ zeros (npar r) ++ [0]]); [cbn [concat]; rewrite app_nil_r; reflexivity|reflexivity|].
    constructor; [|constructor]. rewrite !zlength_app, zeros_length, zlength_one by lia. change (zlength [0; 1]) with 2. lia.
  - intros Nr No. apply (sized_intro 3 (ncols r) (map (fun row => first_cell row :: after_outputs true r row) (rm r) ++ [[0; 1] ++ zeros (ncols r - 2); zeros (ncols r)])).
    + unfold scattering_numbers. rewrite Nr, No. replace (ncols r - 1 + 1) with (ncols r) by lia. rewrite concat_app. cbn [concat]. now rewrite app_nil_r, <- !app_assoc.
    + rewrite zlength_app. unfold zlength in *. rewrite map_length. cbn [Datatypes.length]. lia.
    + apply Forall_app. split.
      * apply Forall_map. revert R. apply Forall_impl. intros row Hr. rewrite zlength_cons, after_outputs_length by assumption. lia.
      * constructor; [rewrite zlength_app, zeros_length by lia; change (zlength [0; 1]) with 2; lia|]. constructor; [apply zeros_length; lia|constructor].
Qed.
Print Assumptions C49_sizes.
(** The accesses of a statement have the same number of columns after the output ones. *)
Theorem C49_access_sizes : forall (cfg : config) (l : list (list relation)) (fake : bool) (t columns : Z), t = TYPE_READ \/ t = TYPE_WRITE ->
  Forall (fun u => exists r, u = [r] /\ (shown_relation (cfg := cfg) TYPE_READ r \/ shown_relation (cfg := cfg) TYPE_WRITE r) /\ 1 <= nrows r /\ ncols r - nout r = columns) l ->
  sized_matrix (accesses_numbers t fake l).
Proof.
  intros cfg l fake t columns Ht H.
  assert (A : Forall (fun r => wf_rel cfg r /\ covered r /\ ncols r - nout r = columns) (of_type t l)).
  { induction H as [|u l (r & -> & Hr & N & Hc) Hl IH]; [constructor|]. cbn [of_type flat_map]. fold (of_type t l). destruct (rtype r =? t); [|exact IH].
    constructor; [|exact IH]. destruct Hr as [Hr|Hr]; apply shown_covered in Hr; tauto. }
  unfold accesses_numbers. apply (sized_intro (zlength (flat_map (access_rows fake) (of_type t l)))
    (match rev (of_type t l) with r :: _ => ncols r - nout r | [] => 0 end + (if fake then 1 else 0)) (flat_map (access_rows fake) (of_type t l))); [reflexivity|reflexivity|].
  destruct (of_type t l) as [|r0 rs] eqn:E; [constructor|]. rewrite <- E in *.
  assert (Ec : match rev (of_type t l) with r :: _ => ncols r - nout r | [] => 0 end = columns).
  { destruct (rev (of_type t l)) as [|r x] eqn:Er; [apply (f_equal (@rev _)) in Er; rewrite rev_involutive, E in Er; discriminate|].
    rewrite Forall_forall in A. destruct (A r) as (_ & _ & X); [|exact X]. rewrite in_rev, Er. now left. }
  rewrite Ec. clear Ec E. induction A as [|r x (W & C & Hc) Hx IH]; [constructor|]. cbn [flat_map]. apply Forall_app. split; [|exact IH]. subst columns.
  pose proof (rows_sized r W C) as R. pose proof C as (C1 & C2 & C3 & C4 & C5). unfold access_rows. destruct (rm r) as [|row [|row' rows]]; [constructor| |].
  - inversion R as [|? ? Hr _]; subst. constructor; [|constructor]. rewrite zlength_cons, zlength_app, zlength_one.
    pose proof (after_outputs_length fake r row C Hr) as X. destruct (exists_last (l := after_outputs fake r row)) as (y & z & Ey).
    { intros Y. rewrite Y in X. destruct fake; cbn in X; lia. } rewrite Ey in *. rewrite removelast_last. rewrite zlength_app, zlength_one in X. destruct fake; lia.
  - inversion R as [|? ? _ R']; subst. inversion R' as [|? ? Hr R'']; subst. constructor; [rewrite zlength_cons, after_outputs_length by assumption; lia|].
    apply Forall_map. revert R''. apply Forall_impl. intros y Hy. rewrite zlength_cons, after_outputs_length by assumption. lia.
Qed.
Print Assumptions C49_access_sizes.

(** ** Nothing is lost *)
Lemma concat_sized (m m' : list (list Z)) c : (length m = length m') -> Forall (fun row => zlength row = c) m -> Forall (fun row => zlength row = c) m' ->
  concat m = concat m' -> m = m'.
Proof.
  intros L H. revert m' L. induction H as [|row m Hr Hm IH]; intros m' L H' E; destruct m' as [|row' m']; try discriminate; [reflexivity|].
  inversion H' as [|? ? Hr' Hm']; subst. cbn [concat] in E. assert (X : row = row' /\ concat m = concat m').
  { assert (Z : length row = length row') by (unfold zlength in Hr'; lia). clear - E Z. revert row' E Z. induction row as [|x row IH]; intros [|x' row'] E Z; try discriminate; [auto|].
    cbn [app] in E. injection E as -> E. destruct (IH row' E) as [-> ->]; [cbn in Z; lia|]. auto. }
  destruct X as [-> X]. f_equal. apply IH; auto.
Qed.
Lemma skipn_more {A} (l : list A) : forall a b, skipn a (skipn b l) = skipn (a + b) l.
Proof.
  induction l as [|x l IH]; intros a b; [now rewrite !skipn_nil|]. destruct b as [|b]; [now rewrite Nat.add_0_r|].
  rewrite Nat.add_succ_r. cbn [skipn]. apply IH.
Qed.
Lemma after_outputs_plain r row : covered r -> after_outputs false r row = skipn (Z.to_nat (1 + nout r)) row.
Proof.
  intros (C1 & C2 & _). unfold after_outputs. cbn [app]. replace (Z.to_nat (1 + nout r + nin r)) with (Z.to_nat (nin r) + Z.to_nat (1 + nout r))%nat by lia.
  rewrite <- skipn_more. apply firstn_skipn.
Qed.
(** The output columns of a scattering that passed the compatibility check are known, so that the numbers written determine it. *)
Theorem C49_scattering_faithful : forall (cfg : config) (r r' : relation) (t t' : Z),
  shown_relation (cfg := cfg) t r -> shown_relation (cfg := cfg) t' r' -> minus_identity_outputs r -> minus_identity_outputs r' ->
  nout r = nout r' -> nin r = nin r' ->
  scattering_numbers false r = scattering_numbers false r' -> nrows r = nrows r' /\ ncols r = ncols r' /\ rm r = rm r'.
Proof.
  intros cfg r r' t t' H H' M M' Eo Ei E. apply shown_covered in H as (W & C & _). apply shown_covered in H' as (W' & C' & _).
  unfold scattering_numbers in E. rewrite !app_nil_r, !Z.add_0_r in E. cbn [app] in E. injection E as Er Ec E.
  pose proof (rows_sized r W C) as R. pose proof (rows_sized r' W' C') as R'. pose proof C as (C1 & C2 & C3 & C4 & C5). pose proof C' as (D1 & D2 & D3 & D4 & D5).
  pose proof (mat_length r W ltac:(lia)) as L. pose proof (mat_length r' W' ltac:(lia)) as L'. assert (Hc : ncols r = ncols r') by lia. split; [exact Er|]. split; [exact Hc|].
  apply concat_sized with (c := ncols r - nout r) in E.
  - apply (nth_ext _ _ [] []); [unfold zlength in *; lia|]. intros k Hk. assert (X : 0 <= Z.of_nat k < nrows r) by (unfold zlength in *; lia).
    assert (Ek : first_cell (nth k (rm r) []) = first_cell (nth k (rm r') []) /\ after_outputs false r (nth k (rm r) []) = after_outputs false r' (nth k (rm r') [])).
    { pose proof (f_equal (fun m => nth k m []) E) as Y. cbn beta in Y.
      rewrite (nth_indep _ [] (first_cell [] :: after_outputs false r [])) in Y by (rewrite map_length; lia).
      rewrite (nth_indep (map _ (rm r')) [] (first_cell [] :: after_outputs false r' [])) in Y by (rewrite map_length; unfold zlength in *; lia).
      rewrite (map_nth (fun row => first_cell row :: after_outputs false r row)), (map_nth (fun row => first_cell row :: after_outputs false r' row)) in Y. injection Y as Y1 Y2. auto. }
    destruct Ek as [E1 E2]. rewrite !after_outputs_plain in E2 by assumption.
    pose proof (M (Z.of_nat k)) as Mk. pose proof (M' (Z.of_nat k)) as Mk'. rewrite Nat2Z.id in Mk, Mk'.
    assert (Lk : zlength (nth k (rm r) []) = ncols r) by (rewrite Forall_forall in R; apply R, nth_In; lia).
    assert (Lk' : zlength (nth k (rm r') []) = ncols r') by (rewrite Forall_forall in R'; apply R', nth_In; unfold zlength in *; lia).
    set (row := nth k (rm r) []) in *. set (row' := nth k (rm r') []) in *. clearbody row row'. unfold zlength in Lk, Lk'.
    apply (nth_ext _ _ 0 0); [lia|]. intros j Hj. destruct j as [|j].
    + destruct row, row'; exact E1.
    + destruct (Z.ltb_spec (Z.of_nat j) (nout r)) as [Hlt|Hge].
      * specialize (Mk (Z.of_nat j) X ltac:(lia)). specialize (Mk' (Z.of_nat j) ltac:(lia) ltac:(lia)). unfold component in Mk, Mk'.
        replace (Z.to_nat (Z.of_nat j + 1)) with (S j) in Mk, Mk' by lia. congruence.
      * pose proof (f_equal (fun l => nth (S j - Z.to_nat (1 + nout r)) l 0) E2) as Y. cbn beta in Y.
        assert (N : forall (l : list Z) a b, nth b (skipn a l) 0 = nth (a + b) l 0).
        { clear. intros l a. revert l. induction a as [|a IH]; intros l b; [reflexivity|]. destruct l as [|x l]; [now destruct b|]. apply IH. }
        rewrite !N in Y. replace (Z.to_nat (1 + nout r) + (S j - Z.to_nat (1 + nout r)))%nat with (S j) in Y by lia.
        replace (Z.to_nat (1 + nout r') + (S j - Z.to_nat (1 + nout r)))%nat with (S j) in Y by lia. exact Y.
  - rewrite !map_length. unfold zlength in *. lia.
  - apply Forall_map. revert R. apply Forall_impl. intros row Hr. rewrite zlength_cons, after_outputs_length by assumption. lia.
  - apply Forall_map. revert R'. apply Forall_impl. intros row Hr. rewrite zlength_cons, after_outputs_length by assumption. lia.
Qed.
Print Assumptions C49_scattering_faithful.
(** So do those of a domain, which has no input dimension. *)
Theorem C49_domain_faithful : forall (cfg : config) (r r' : relation) (t t' : Z),
  shown_relation (cfg := cfg) t r -> shown_relation (cfg := cfg) t' r' -> nin r = 0 -> nin r' = 0 ->
  domain_numbers false r = domain_numbers false r' -> nrows r = nrows r' /\ ncols r = ncols r' /\ rm r = rm r'.
Proof.
  intros cfg r r' t t' H H' I I' E. apply shown_covered in H as (W & C & _). apply shown_covered in H' as (W' & C' & _).
  cbn [domain_numbers app] in E. injection E as Er Ec E. rewrite I, I' in Ec. split; [exact Er|]. assert (Hc : ncols r = ncols r') by lia. split; [exact Hc|].
  pose proof (rows_sized r W C) as R. pose proof (rows_sized r' W' C') as R'. pose proof C as (C1 & C2 & C3 & C4 & C5). pose proof C' as (D1 & D2 & D3 & D4 & D5).
  pose proof (mat_length r W ltac:(lia)) as L. pose proof (mat_length r' W' ltac:(lia)) as L'.
  assert (Z : forall r, nin r = 0 -> map (without_inputs r) (rm r) = rm r).
  { intros x Hx. erewrite map_ext; [apply map_id|]. intros row. unfold without_inputs. rewrite Hx, Z.add_0_r. apply firstn_skipn. }
  rewrite !Z in E by assumption. apply concat_sized with (c := ncols r) in E; [exact E| |exact R|rewrite Hc; exact R']. unfold zlength in *. lia.
Qed.
Print Assumptions C49_domain_faithful.

(** ** A concrete case: two statements, one without loop, arrays and parameters named *)
Definition sl_write := mkrel TYPE_WRITE 64 2 6 2 1 0 1 [[0; -1; 0; 0; 0; 3]; [0; 0; -1; 1; 0; -1]].
Definition sl_scalar := mkrel TYPE_WRITE 64 1 4 1 0 0 1 [[0; -1; 0; 4]].
Definition sl_nodomain := mkrel TYPE_DOMAIN 64 0 3 0 0 0 1 [].
Definition sl_constant := mkrel TYPE_SCATTERING 64 1 4 1 0 0 1 [[0; -1; 0; 5]].
Definition sl_statements := [Statement [ex_domain] [ex_scattering] [[ex_read]; [sl_write]] [ex_ext];
                             Statement [sl_nodomain] [sl_constant] [[sl_scalar]] []].
Definition sl_scop := Scop 1 (Some (lit "C")) [ex_context] [Generic (Some (osl_interface_of KStrings)) (Some (DStrings (Some [lit "N"])))] sl_statements default_registry
  [Generic (Some (osl_interface_of KArrays)) (Some (DArrays [(2, lit "A"); (3, lit "B"); (4, lit "x")]))].

Ltac shown_lit := unfold shown_relation; split; [unfold wf_rel; cbn [ex_context ex_domain ex_scattering ex_read sl_write sl_scalar sl_nodomain sl_constant rtype rprec nrows ncols rm]; LoopLemmas.wf_lit; cbn; try lia|cbn; repeat (split; [reflexivity || lia|]); reflexivity || lia].
Example C49_witness_hypotheses : shown_scop (cfg := lp64_debug) sl_scop.
Proof.
  split; [exists ex_context; split; [reflexivity|shown_lit]|]. split.
  { right. exists KStrings, (Some [lit "N"]). split; [reflexivity|]. constructor; [|constructor]. split; [apply no_nl_lit; reflexivity|]. cbn. intuition discriminate. }
  split.
  - apply Forall_cons; [|apply Forall_cons; [|apply Forall_nil]].
    + split; [discriminate|]. split; [apply Forall_cons; [shown_lit|apply Forall_nil]|]. split; [discriminate|]. split; [exists ex_scattering; split; [reflexivity|shown_lit]|].
      split; [discriminate|]. split.
      { apply Forall_cons; [|apply Forall_cons; [|apply Forall_nil]].
        - exists ex_read. split; [reflexivity|]. split; [left; shown_lit|cbn; lia].
        - exists sl_write. split; [reflexivity|]. split; [right; shown_lit|cbn; lia]. }
      split; [intros d Hd; cbn in Hd; exists ex_body; now injection Hd as <-|]. split.
      * constructor; [|constructor]. split; [apply no_nl_lit; reflexivity|]. cbn. intuition discriminate.
      * constructor; [|constructor]. cbn. intuition discriminate.
    + split; [discriminate|]. split; [apply Forall_cons; [shown_lit|apply Forall_nil]|]. split; [intros _; repeat constructor|]. split; [exists sl_constant; split; [reflexivity|shown_lit]|].
      split; [discriminate|]. split; [apply Forall_cons; [|apply Forall_nil]; exists sl_scalar; split; [reflexivity|]; split; [right; shown_lit|cbn; lia]|].
      split; [discriminate|]. exact I.
  - intros d Hd. cbn in Hd. exists [(2, lit "A"); (3, lit "B"); (4, lit "x")]. split; [now injection Hd as <-|].
    apply Forall_cons; [|apply Forall_cons; [|apply Forall_cons; [|apply Forall_nil]]]; apply no_nl_lit; reflexivity.
Qed.
Example C49_witness : exists text, @osl_scop_print_scoplib lp64_debug [sl_scop] = Ok text /\ (1000 < List.length text)%nat /\
  words text = map lit ["SCoP"; "C"; "1"; "3"; "1"; "1"; "-1"; "1"; "N"; "2";
    "1"; "2"; "4"; "1"; "1"; "0"; "0"; "1"; "-1"; "1"; "-1"; "1"; "1"; "4"; "0"; "1"; "0"; "0"; "1"; "1"; "4"; "2"; "1"; "0"; "0"; "1"; "4"; "3"; "1"; "0"; "-1"; "1"; "i"; "S(i)"; "="; "A[i];";
    "1"; "1"; "4"; "0"; "1"; "0"; "0"; "1"; "3"; "4"; "0"; "0"; "0"; "5"; "0"; "1"; "0"; "0"; "0"; "0"; "0"; "0"; "1"; "0"; "1"; "1"; "4"; "4"; "0"; "0"; "0"; "0";
    "<arrays>"; "3"; "2"; "A"; "3"; "B"; "4"; "x"; "</arrays>"]%string.
Proof.
  assert (E : exists text, @osl_scop_print_scoplib lp64_debug [sl_scop] = Ok text) by (eexists; vm_compute; reflexivity).
  destruct E as [text E]. exists text. split; [exact E|]. split.
  - vm_compute in E. apply Ok_inj in E. subst text. apply Nat.ltb_lt. vm_compute. reflexivity.
  - rewrite (C49_scop lp64_debug [sl_scop] text); [vm_compute; reflexivity|constructor; [exact C49_witness_hypotheses|constructor]|exact E].
Qed.

(** ** Where the format is not respected *)
(** With the option that adds an iterator, the loop on the rows of a scattering reuses its index for the two lines it adds.  A scattering of two
    or three rows gets only its first row; with four rows or more the loop never ends. *)
Lemma rows_forever cfg (r : relation) u strings arrays start : rtype r = TYPE_SCATTERING -> 4 <= nrows r ->
  (forall k, 0 <= k < nrows r -> exists t, scoplib_row (cfg := cfg) false true start r k = Ok t) ->
  (forall k, 0 <= k < nrows r -> exists t, osl_relation_sprint_comment (cfg := cfg) u r k strings arrays = Ok t) ->
  forall fuel i, 0 <= i < nrows r -> scoplib_rows (cfg := cfg) fuel false true start u r i strings arrays = OutOfFuel.
Proof.
  intros T N Hr Hc fuel. induction fuel as [|k IH]; intros i Hi; cbn [scoplib_rows]; (destruct (Z.ltb_spec i (nrows r)); [|lia]); [reflexivity|].
  destruct (Hr i ltac:(lia)) as [t ->]. cbn [bind]. destruct (Hc i ltac:(lia)) as [t' ->]. cbn [bind]. rewrite T. change (true && (TYPE_SCATTERING =? TYPE_SCATTERING)) with true. cbv iota.
  assert (F : forall b, exists x, fake_line r b = Ok x).
  { intros b. unfold fake_line. clear. assert (X : forall n lo (s : str), n = Z.to_nat (ncols r - lo) ->
      exists x, cfor lo (ncols r) (fun j s => Ok (s ++ if b && (j =? 1) then one_cell else zero_cell)) s = Ok x); [|eapply X; reflexivity].
    induction n as [|n IHn]; intros lo s En.
    - exists s. rewrite cfor_empty by lia. reflexivity.
    - rewrite cfor_step by lia. cbn [bind]. apply IHn. lia. }
  destruct (F true) as [x ->]. destruct (F false) as [y ->]. cbn [bind]. rewrite IH; [reflexivity|lia].
Qed.
Definition sl_four := mkrel TYPE_SCATTERING 64 4 6 4 0 0 0
  [[0; -1; 0; 0; 0; 1]; [0; 0; -1; 0; 0; 2]; [0; 0; 0; -1; 0; 3]; [0; 0; 0; 0; -1; 4]].
Definition sl_two := mkrel TYPE_SCATTERING 64 2 4 2 0 0 0 [[0; -1; 0; 1]; [0; 0; -1; 2]].
Definition sl_names := Names (Some []) (Some []) (Some [lit "c1"; lit "c2"; lit "c3"; lit "c4"]) (Some []) (Some []).
Theorem C49_fake_rows_refuted :
  shown_relation (cfg := lp64_debug) TYPE_SCATTERING sl_four /\ shown_relation (cfg := lp64_debug) TYPE_SCATTERING sl_two /\
  (forall strings, osl_relation_strings sl_four sl_names = Ok strings ->
    forall fuel, scoplib_rows (cfg := lp64_debug) fuel false true 0 [sl_four] sl_four 0 strings (n_arrays sl_names) = OutOfFuel) /\
  (exists strings, osl_relation_strings sl_four sl_names = Ok strings) /\
  exists text, @osl_relation_spprint_scoplib lp64_debug [sl_two] (Some sl_names) false true = Ok text /\
    words text = numbers [4; 3; 0; 0; 1; 0; 1; 0; 0; 0; 0; 0; 0] /\ ~ sized_matrix [4; 3; 0; 0; 1; 0; 1; 0; 0; 0; 0; 0; 0].
Proof.
  split; [unfold sl_four; shown_lit|]. split; [unfold sl_two; shown_lit|]. split; [|split; [eexists; vm_compute; reflexivity|]].
  - intros strings E fuel. apply rows_forever; [reflexivity|cbn; lia| | |cbn; lia]; intros k Hk; cbn [nrows sl_four] in Hk;
      assert (H : k = 0 \/ k = 1 \/ k = 2 \/ k = 3) by lia; vm_compute in E; apply Ok_inj in E; subst strings; destruct H as [->|[->|[->| ->]]]; eexists; vm_compute; reflexivity.
  - eexists. split; [vm_compute; reflexivity|]. split; [vm_compute; reflexivity|]. intros (a & b & m & E & L & F). cbn [app] in E. injection E as <- <- E.
    assert (H : (List.length (concat m) = 12)%nat).
    { assert (X : (List.length m = 4)%nat) by (unfold zlength in L; lia). destruct m as [|a [|b [|c [|d [|e m]]]]]; try discriminate. rewrite !Forall_cons_iff in F. unfold zlength in F.
      cbn [concat]. rewrite !app_length. cbn [Datatypes.length]. lia. }
    rewrite <- E in H. discriminate.
Qed.
Print Assumptions C49_fake_rows_refuted.

Definition sl_may := mkrel TYPE_MAY_WRITE 64 2 6 2 1 0 1 [[0; -1; 0; 0; 0; 3]; [0; 0; -1; 1; 0; -1]].
Definition sl_empty := mkrel TYPE_READ 64 0 4 1 0 0 1 [].
Definition sl_free := mkrel TYPE_DOMAIN 64 0 4 1 0 0 1 [].
Definition sl_names1 := Names (Some [lit "N"]) (Some [lit "i"]) (Some [lit "c1"]) (Some []) (Some [lit "A"]).
(** Accesses: a may-write is announced as one row, and its size and both its rows follow; the parts of a union are announced as one row, and
    their number comes first; an access without row counts for -1; without access, the sizes are missing although they are announced. *)
Theorem C49_access_refuted :
  (exists text, @osl_relation_list_pprint_access_array_scoplib lp64_debug [[sl_may]] None false = Ok text /\
     words text = numbers ([0; 0] ++ [0; 0] ++ [1; 4] ++ [2; 4] ++ [0; 0; 0; 3] ++ [0; 1; 0; -1])) /\
  (exists text, @osl_relation_list_pprint_access_array_scoplib lp64_debug [[ex_read; ex_read]] None false = Ok text /\
     words text = numbers ([1; 4] ++ [2] ++ [2; 1; 0; 0] ++ [2; 1; 0; 0] ++ [0; 0])) /\
  (exists text, @osl_relation_list_pprint_access_array_scoplib lp64_debug [[sl_empty]] (Some sl_names1) false = Ok text /\
     words text = numbers ([-1; 3] ++ [0; 0])) /\
  (exists text, @osl_relation_list_pprint_access_array_scoplib lp64_debug [] None false = Ok text /\ words text = []).
Proof. repeat split; eexists; (split; [vm_compute; reflexivity|vm_compute; reflexivity]). Qed.
Print Assumptions C49_access_refuted.
(** A domain without constraint but with an iterator, in a statement with one time dimension: 5 columns are announced, 4 are written. *)
Theorem C49_free_iterator_refuted :
  shown_statement (cfg := lp64_debug) (Statement [sl_free] [ex_scattering] [[ex_read]] []) /\
  (exists text rest, @osl_statement_pprint_scoplib lp64_debug [Statement [sl_free] [ex_scattering] [[ex_read]] []] None = Ok text /\
    words text = numbers ([1] ++ domain_numbers true sl_free) ++ rest) /\
  domain_numbers true sl_free = [1; 5; 0; 1; 0; 0] /\ ~ sized_matrix [1; 5; 0; 1; 0; 0].
Proof.
  split.
  { split; [discriminate|]. split; [apply Forall_cons; [unfold sl_free; shown_lit|apply Forall_nil]|]. split; [intros _; repeat constructor|].
    split; [exists ex_scattering; split; [reflexivity|shown_lit]|]. split; [discriminate|].
    split; [apply Forall_cons; [|apply Forall_nil]; exists ex_read; split; [reflexivity|]; split; [left; shown_lit|cbn; lia]|]. split; [discriminate|exact I]. }
  split.
  - eexists. exists (skipn 7 (statement_words (Statement [sl_free] [ex_scattering] [[ex_read]] []))). split; [vm_compute; reflexivity|vm_compute; reflexivity].
  - split; [reflexivity|]. intros (a & b & m & E & L & F). cbn [app] in E. injection E as <- <- E. destruct m as [|x [|y m]]; [discriminate| |rewrite !zlength_cons in L; pose proof (zlength_nonneg m); lia].
    apply Forall_cons_iff in F as [F _]. cbn [concat] in E. rewrite app_nil_r in E. subst x. discriminate.
Qed.
Print Assumptions C49_free_iterator_refuted.
(** Undefined: a statement without domain; parameters that are not strings. *)
Theorem C49_null_refuted :
  @osl_statement_pprint_scoplib lp64_debug [Statement [] [ex_scattering] [[ex_read]] []] None = UB /\
  @osl_scop_print_scoplib lp64_debug [Scop 1 (Some (lit "C")) [ex_context] [ex_ext] [] default_registry []] = UB /\
  @osl_scop_check_compatible_scoplib lp64_debug [Scop 1 (Some (lit "C")) [ex_context] [ex_ext] [] default_registry []] = Ok true.
Proof. repeat split; vm_compute; reflexivity. Qed.
Print Assumptions C49_null_refuted.
