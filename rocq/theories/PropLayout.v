(** * C49 and C53: the layout of the files; every scop the SCoPLib format can express is printed *)
From Coq Require Import ZifyBool ZifyNat.
From Verif Require Import Base IntModel VectorModel RelationModel UtilModel StringsModel RelTextModel ExtModel ScopModel CloneModel
  Spec RelSpec TextSpec ExprSpec LoopLemmas IntProofs TextInt VectorProofs RelationProofs RelationProofs4 UtilProofs RelTextProofs PropStrings RelTextProofs2
  PropRelText PropRelation2 PropExpr PropExpr2 ExtSpec ExtProofs PropExt PropExt2 PropExt3 SaveSpec SaveProofs3 SaveProofs4 ScopSpec PropScop CloneSpec
  PrintSpec PrintProofs PrintProofs2 PrintProofs3 PrintProofs4 PropScop2 PropPrint PropScoplib ScoplibModel ScoplibSpec ScoplibProofs ScoplibProofs2 ScoplibProofs3 PropScoplib2
  ScoplibProofs4 LayoutSpec.

Lemma title_eq t : rule_title t = title t.
Proof. unfold rule_title, title, text_line, ln. now rewrite app_assoc. Qed.
Lemma two_eq k : print2 k = two_places k.
Proof.
  unfold print2, two_places. cbv zeta. destruct (Z.leb_spec 0 k) as [H0|H0]; cbn [andb].
  - destruct (Z.ltb_spec k 10) as [H1|H1].
    + assert (H : k = 0 \/ k = 1 \/ k = 2 \/ k = 3 \/ k = 4 \/ k = 5 \/ k = 6 \/ k = 7 \/ k = 8 \/ k = 9) by lia.
      destruct H as [->|[->|[->|[->|[->|[->|[->|[->|[->| ->]]]]]]]]]; reflexivity.
    + assert (H : exists a b l, print_Z k = a ++ b :: l /\ a <> []).
      { unfold print_Z, print_nat_Z. destruct (Z.ltb_spec k 0); [lia|]. cbn [digits_loop]. destruct (Z.ltb_spec k 10); [lia|].
        assert (Hl : 1 <= Z.log2 k) by (change 1 with (Z.log2 2); apply Z.log2_le_mono; lia).
        replace (Z.to_nat (Z.log2 k)) with (S (Z.to_nat (Z.log2 k - 1))) by lia. rewrite digits_loop_acc.
        eexists _, _, _. split; [reflexivity|apply digits_loop_nonempty]. }
      destruct H as (a & b & l & -> & Ha). destruct a as [|x [|y a]]; [congruence| |]; reflexivity.
  - assert (H : exists a l, print_Z k = c_minus :: a :: l).
    { unfold print_Z, print_nat_Z. destruct (Z.ltb_spec k 0); [|lia]. destruct (digits_loop _ _ _) as [|x l] eqn:E; [now apply digits_loop_nonempty in E|]. eauto. }
    destruct H as (a & l & ->). reflexivity.
Qed.
Lemma section_eq k t : section_title k t = section k t.
Proof. unfold section_title, section, text_line, ln. rewrite two_eq. now rewrite <- !app_assoc. Qed.
Lemma provided_eq b t : osl_util_print_provided b t = provided b t.
Proof. unfold osl_util_print_provided, provided, text_line, number_line, blank_line. destruct b; rewrite <- !app_assoc; reflexivity. Qed.

(** ** The OpenScop format *)
Lemma elts_separated {cfg : config} n l : forall t, Forall present l -> print_elts (cfg := cfg) l n = Ok t ->
  exists texts, Forall2 (fun u t => osl_relation_spprint u n = Ok t) l texts /\ t = separated texts.
Proof.
  induction l as [|u l IH]; intros t Hp E; cbn [print_elts] in E; [apply Ok_inj in E; subst t; exists []; split; [constructor|reflexivity]|].
  apply Forall_cons_iff in Hp. destruct Hp as [Hu Hl]. destruct u as [|r u]; [now destruct Hu|]. inv_bind E. inv_bind E. inv_bind E0. apply Ok_inj in E, E0. subst t v.
  destruct (IH _ Hl E1) as (texts & Hf & ->). exists (v1 :: texts). split; [constructor; assumption|].
  destruct l as [|u' l]; inversion Hf as [|? t1 ? ts H1 H2]; subst.
  - cbn [separated]. now rewrite !app_nil_r.
  - change (separated (v1 :: t1 :: ts)) with (v1 ++ blank_line ++ separated (t1 :: ts)). now rewrite <- app_assoc.
Qed.
Lemma count_filter l : osl_relation_list_count l = zlength (filter is_present l).
Proof. reflexivity. Qed.
Lemma statement_layout {cfg : config} k s n t : statement_pprint_one (cfg := cfg) k s n = Ok t -> statement_laid_out k s t.
Proof.
  intros E. unfold statement_pprint_one in E. inv_bind E. set (n' := with_iterators n v) in *. clearbody n'.
  inv_bind E. rename v0 into d. inv_bind E. rename v0 into c. inv_bind E. rename v0 into a. inv_bind E. rename v0 into e. apply Ok_inj in E.
  exists n', d, c, a, e. split; [assumption|]. split; [assumption|]. split; [|split; [|split; [|split]]].
  - intros Hp Hne. unfold osl_relation_list_pprint_elts in E3. destruct (Z.ltb_spec 0 (osl_relation_list_count (st_access s))) as [H|H].
    + destruct (elts_separated (Some n') (st_access s) a Hp E3) as (texts & H1 & H2). eauto.
    + exfalso. destruct (st_access s) as [|u l]; [congruence|]. apply Forall_inv in Hp. destruct u as [|r u]; [now destruct Hp|].
      unfold osl_relation_list_count in H. cbn [filter] in H. rewrite zlength_cons in H. match type of H with context [zlength ?q] => pose proof (zlength_nonneg q) end. lia.
  - intros Hp. unfold osl_relation_list_pprint_elts in E3. destruct (Z.ltb_spec 0 (osl_relation_list_count (st_access s))) as [H|H]; [|now apply Ok_inj in E3].
    exfalso. unfold osl_relation_list_count in H. assert (X : filter (fun u : list relation => match u with [] => false | _ => true end) (st_access s) = []).
    { clear - Hp. induction Hp as [|u l Hu Hl IH]; [reflexivity|]. cbn [filter]. destruct u; [assumption|]. exfalso. apply Hu. discriminate. }
    rewrite X in H. cbn in H. lia.
  - intros Hne. unfold osl_generic_number in E4. destruct (Z.ltb_spec 0 (zlength (st_ext s))) as [H|H]; [assumption|].
    exfalso. destruct (st_ext s); [congruence|]. rewrite zlength_cons in H. match type of H with context [zlength ?q] => pose proof (zlength_nonneg q) end. lia.
  - intros Hn. rewrite Hn in E4. cbn in E4. now apply Ok_inj in E4.
  - subst t. rewrite title_eq, !section_eq. unfold lnZ. 
    replace (zlength (filter is_present (st_domain s :: st_scattering s :: st_access s)))
      with ((if is_null (st_domain s) then 0 else 1) + (if is_null (st_scattering s) then 0 else 1) + osl_relation_list_count (st_access s)); [reflexivity|].
    rewrite count_filter. cbn [filter]. destruct (st_domain s), (st_scattering s); cbn [is_present is_null]; rewrite ?zlength_cons; lia.
Qed.
Lemma statements_layout {cfg : config} n l : forall k t, statements_pprint (cfg := cfg) k l n = Ok t -> numbered_texts statement_laid_out k l t.
Proof.
  induction l as [|s l IH]; intros k t E; cbn [statements_pprint] in E; [apply Ok_inj in E; subst; constructor|].
  inv_bind E. inv_bind E. apply Ok_inj in E. subst t. constructor; [now apply (statement_layout k s n)|now apply IH].
Qed.
(** The text of statements: one after the other, numbered from 1. *)
Theorem C53_statements_layout : forall (cfg : config) (l : list statement) (on : option names) (text : str),
  osl_statement_pprint l on = Ok text -> numbered_texts statement_laid_out 1 l text.
Proof. intros cfg l on text E. unfold osl_statement_pprint in E. inv_bind E. now apply (statements_layout v). Qed.
Print Assumptions C53_statements_layout.
Lemma scop_layout {cfg : config} s n t : scop_print_one (cfg := cfg) s n = Ok t -> scop_laid_out s t.
Proof.
  intros E. unfold scop_print_one in E. inv_bind E. inv_bind E. rename v0 into n'. inv_bind E. rename v0 into c. inv_bind E. rename v0 into p. inv_bind E. rename v0 into x. inv_bind E. rename v0 into e. apply Ok_inj in E.
  exists n', c, p, x, e. split; [assumption|]. split; [assumption|]. split; [now apply (C53_statements_layout _ _ (Some n'))|]. split; [assumption|].
  subst t. rewrite title_eq, (title_eq (lit "Extensions")), provided_eq. reflexivity.
Qed.
(** The text of scops: a line that names the library, then the scops; everything that is not the text of a relation, of the
    parameters or of an extension is fixed, up to the language, the numbers of things and the numbers of the statements. *)
Theorem C53_layout : forall (cfg : config) (l : list scop) (text : str), l <> [] -> osl_scop_print l = Ok text -> file_laid_out l text.
Proof.
  intros cfg l text Hne E. unfold osl_scop_print in E. destruct l as [|s0 l0]; [congruence|]. inv_bind E. inv_bind E. rename v0 into n. inv_bind E. rename v0 into t. apply Ok_inj in E.
  clear E0 E1 Hne. assert (H : exists texts, Forall2 scop_laid_out (s0 :: l0) texts /\ t = concat texts).
  { revert t E2 E. generalize (s0 :: l0). intros l t E2 _. revert t E2. induction l as [|s l IH]; intros t E2; cbn [print_all] in E2.
    - apply Ok_inj in E2. subst t. exists []. split; [constructor|reflexivity].
    - inv_bind E2. inv_bind E2. apply Ok_inj in E2. subst t. destruct (IH _ E0) as (texts & Hf & ->). exists (v0 :: texts). split; [|reflexivity]. constructor; [|assumption].
      now apply (scop_layout s n). }
  destruct H as (texts & Hf & Et). exists release, texts. split; [apply no_nl_lit; reflexivity|]. split; [assumption|]. subst. reflexivity.
Qed.
Print Assumptions C53_layout.

(** ** The SCoPLib format *)
Lemma statement_layout_scoplib {cfg : config} k s n t : shown_statement (cfg := cfg) s -> one_line_names (Some n) ->
  statement_pprint_scoplib_one (cfg := cfg) k s n = Ok t -> statement_laid_out_scoplib k s t.
Proof.
  intros (Hd & Hds & Hf & (r & Hs & Hr) & Ha & Has & Hl & Hb) O E. unfold statement_pprint_scoplib_one in E. inv_bind E.
  assert (Eb : body_of_statement s = v).
  { unfold body_of in E0. unfold body_of_statement. destruct (osl_generic_lookup (st_ext s) (uri_of KBody)) as [d|]; [|congruence]. destruct (Hl d eq_refl) as (b & ->). congruence. }
  rewrite Eb in Hb. inv_bind E.
  assert (Ef : loopless s = v0).
  { unfold loopless. rewrite Hs in *. destruct (st_domain s) as [|d ds]; [discriminate|]. destruct (nrows d =? 0); cbn [andb] in *; now apply Ok_inj in E1. }
  rewrite <- Ef in *. clear v0 Ef E1.
  assert (O' : one_line_names (Some (with_iterators n v))).
  { destruct v as [[[it|] e]|]; cbn [with_iterators]; try exact O. destruct O as (O1 & O2 & O3 & O4 & O5). cbn. repeat (split; [assumption|]).
    split; [|auto]. destruct Hb as [Hb _]. cbn in Hb. revert Hb. apply Forall_impl. unfold plain. tauto. }
  inv_bind E. rename v0 into d. inv_bind E. rename v0 into c. inv_bind E. rename v0 into a. inv_bind E. rename v0 into e. apply Ok_inj in E.
  assert (F : loopless s = true -> TYPE_SCATTERING = TYPE_SCATTERING /\ nrows r = 1).
  { intros X. split; [reflexivity|]. unfold loopless in X. rewrite Hs in X. destruct (st_domain s); [discriminate|]. apply andb_true_iff in X. lia. }
  apply domain_closed in E1; [|assumption|assumption|assumption|exact O']. rewrite Hs in E2.
  apply (matrix_closed r _ _ _ TYPE_SCATTERING Hr) in E2; [|now left|exact F|exact O'].
  apply accesses_closed in E3; [|assumption|exact Has|exact O'].
  exists d, c, a, e. split; [now apply closed_words|]. split; [rewrite Hs; now apply closed_words|]. split; [now apply closed_words|].
  split; [|subst t; rewrite title_eq, !section_eq; reflexivity].
  rewrite Eb. destruct v as [b|].
  - inv_bind E4. apply Ok_inj in E4. subst e. exists v. split; [reflexivity|]. apply body_closed in E5; [|exact Hb]. apply closed_words in E5. rewrite E5. reflexivity.
  - now apply Ok_inj in E4.
Qed.
(** The statements of a text in the SCoPLib format come one after the other, numbered from 1, in four numbered sections. *)
Theorem C49_layout : forall (cfg : config) (l : list statement) (on : option names) (text : str),
  Forall (shown_statement (cfg := cfg)) l -> one_line_names on ->
  osl_statement_pprint_scoplib l on = Ok text -> numbered_texts statement_laid_out_scoplib 1 l text.
Proof.
  intros cfg l on text H O E. unfold osl_statement_pprint_scoplib in E. inv_bind E.
  assert (O' : one_line_names (Some v)). { destruct on as [n|]; [injection E0 as <-; exact O|]. unfold osl_statement_names in E0. inv_bind E0. now apply names_of_ok in E0. }
  clear O E0. revert text E. generalize 1. induction l as [|s l IH]; intros k text E; cbn [statements_pprint_scoplib] in E; [apply Ok_inj in E; subst; constructor|].
  apply Forall_cons_iff in H. destruct H as [Hs Hl]. inv_bind E. inv_bind E. apply Ok_inj in E. subst text. constructor; [now apply (statement_layout_scoplib k s v)|now apply IH].
Qed.
Print Assumptions C49_layout.
(** The whole file. *)
Theorem C49_file_layout : forall (cfg : config) (s : scop) (text : str), shown_scop (cfg := cfg) s -> osl_scop_print_scoplib [s] = Ok text ->
  exists version c p t o, no_nl version /\ words c = numbers (flat_map (scattering_numbers false) (sc_context s)) /\
    words p = match sc_params s with [] => [] | _ => tl (parameters_words (sc_params s)) end /\
    numbered_texts statement_laid_out_scoplib 1 (sc_stmts s) t /\ words o = arrays_words (sc_ext s) /\
    text = text_line (lit "# [File generated by the OpenScop Library " ++ version ++ lit "]") ++ text_line (lit "# [SCoPLib format]")
           ++ blank_line ++ text_line (lit "SCoP") ++ blank_line
           ++ title (lit "Global") ++ text_line (lit "# Language") ++ language_line s ++ blank_line
           ++ text_line (lit "# Context") ++ c ++ blank_line
           ++ provided (match sc_params s with [] => false | _ => true end) (lit "Parameters are")
           ++ (match sc_params s with [] => [] | _ => text_line (lit "# Parameter names") ++ p end) ++ blank_line
           ++ text_line (lit "# Number of statements") ++ number_line (zlength (sc_stmts s)) ++ blank_line ++ t
           ++ match sc_ext s with [] => [] | _ => title (lit "Options") ++ o end.
Proof.
  intros cfg s text Hsh E. unfold osl_scop_print_scoplib in E. inv_bind E. destruct v; [|discriminate]. cbn [negb] in E. inv_bind E.
  assert (O : one_line_names (Some v)). { unfold osl_scop_names in E1. inv_bind E1. now apply names_of_ok in E1. }
  clear E0 E1. inv_bind E. apply Ok_inj in E. cbn [print_all] in E0. inv_bind E0. apply Ok_inj in E0. rewrite app_nil_r in E0. subst v1.
  destruct Hsh as ((r & Hc & Hr) & Hp & Hst & Ha). unfold scop_print_scoplib_one in E1.
  inv_bind E1. rename v1 into n1. inv_bind E1. rename v1 into n2. inv_bind E1. rename v1 into c. inv_bind E1. rename v1 into p. inv_bind E1. rename v1 into t. inv_bind E1. rename v1 into o. apply Ok_inj in E1.
  assert (O1 : one_line_names (Some n1)).
  { destruct Hp as [Hp|(k & names & Hp & Hw)]; rewrite Hp in E0; [cbn in E0; apply Ok_inj in E0; now subst n1|].
    unfold with_parameters, has_uri in E0. cbn [g_uri g_iface if_uri g_data] in E0. change (uri_of KStrings) with (lit "strings") in E0. rewrite str_eqb_refl in E0. apply Ok_inj in E0. subst n1.
    destruct O as (_ & O2 & O3 & O4 & O5). split; [|auto]. revert Hw. apply Forall_impl. unfold plain. tauto. }
  pose proof (array_names_ok _ _ _ Ha O1 E2) as O2.
  assert (Hcw : words c = numbers (flat_map (scattering_numbers false) (sc_context s))).
  { rewrite Hc in *. apply (matrix_closed r _ _ _ TYPE_CONTEXT Hr) in E3; [|now right|discriminate|exact O2]. now apply closed_words. }
  assert (Ht : numbered_texts statement_laid_out_scoplib 1 (sc_stmts s) t) by now apply (C49_layout cfg (sc_stmts s) (Some n2)).
  assert (Hpp : exists p', words p' = match sc_params s with [] => [] | _ => tl (parameters_words (sc_params s)) end /\
    p = match sc_params s with [] => [] | _ => text_line (lit "# Parameter names") ++ p' end /\
    osl_generic_has_URI (sc_params s) (uri_of KStrings) = match sc_params s with [] => false | _ => true end).
  { destruct Hp as [Hp|(k & names & Hp & Hw)]; rewrite Hp in *.
    - apply Ok_inj in E4. subst p. exists []. split; [reflexivity|]. split; reflexivity.
    - cbn [g_data] in E4. inv_bind E4. apply Ok_inj in E4. subst p. exists v1. split; [|split; [reflexivity|]].
      + apply strings_closed in E7; [|revert Hw; apply Forall_impl; unfold plain; tauto]. apply closed_words in E7. rewrite E7. reflexivity.
      + cbn [osl_generic_has_URI]. unfold has_uri. cbn [g_uri g_iface if_uri]. change (uri_of KStrings) with (lit "strings"). apply str_eqb_refl. }
  destruct Hpp as (p' & Hw & -> & Hu).
  assert (Hoo : exists o', words o' = arrays_words (sc_ext s) /\ o = match sc_ext s with [] => [] | _ => title (lit "Options") ++ o' end).
  { destruct (sc_ext s) as [|g l] eqn:Ex; [apply Ok_inj in E6; subst o; exists []; split; reflexivity|]. inv_bind E6. apply Ok_inj in E6. subst o. exists v1. split; [|now rewrite title_eq].
    apply options_closed in E7; [|assumption]. now apply closed_words. }
  destruct Hoo as (o' & How & ->).
  exists release, c, p', t, o'. split; [apply no_nl_lit; reflexivity|]. split; [assumption|]. split; [assumption|]. split; [assumption|]. split; [assumption|].
  subst text v0. rewrite title_eq, provided_eq, Hu. destruct (sc_params s); reflexivity.
Qed.
Print Assumptions C49_file_layout.

(** Every scop that the format can express and whose rows fit in the line buffers is printed: the printer never stops, never overflows a buffer
    and ends. *)
Theorem C49_prints : forall (cfg : config) p m s, config_ok cfg -> supported cfg p -> 16 <= m ->
  scop_ok cfg p default_registry s -> c_sizes s -> coherent_scop s -> scop_fits m s -> shown_scop (cfg := cfg) s -> Forall scoplib_style (sc_stmts s) ->
  exists text, osl_scop_print_scoplib [s] = Ok text /\ words text = scop_words s.
Proof.
  intros cfg p m s Hc Hp Hm Hok Hsz Hco Hf Hsh Hsty.
  assert (HF : Forall (union_fits m) (relations_of_scop s)) by apply Hf.
  pose proof (scop_unions cfg p m default_registry s Hok Hco HF) as Hg.
  assert (Hg' : Forall (good_union cfg p m) (relations_of_scops [s])) by (unfold relations_of_scops; cbn [flat_map]; now rewrite app_nil_r).
  assert (Hctx : Forall (fun s => sc_context s <> []) [s]) by (constructor; [apply Hok|constructor]).
  destruct (scop_names_total cfg p m Hc [s] ltac:(discriminate) Hctx Hg') as (n & En & Hs & Hone & Hn).
  assert (Hr : ready m n) by (split; [revert Hs; unfold short_names; apply Forall_impl; intros w Hw; lia|assumption]).
  assert (HC : osl_scop_check_compatible_scoplib [s] = Ok true).
  { apply (C45_complete cfg); try assumption.
    - revert Hg. apply Forall_impl. intros u ((t & Hs') & _). revert Hs'. apply Forall_impl. intros r (W & _). exact W.
    - revert Hg. apply Forall_impl. intros u (_ & [_ Hf'] & _). revert Hf'. apply Forall_impl. intros r (_ & H & _). exact H.
    - pose proof (bodies cfg p default_registry [s] eq_refl) as X. assert (Y : Forall bodies_are_bodies [s]) by (apply X; constructor; [assumption|constructor]). now apply Forall_inv in Y.
    - exists p. assert (X : Forall (fun st => exists r, st_scattering st = [r] /\ rprec r = p /\ 0 <= nin r /\ 0 <= npar r /\ -1 <= nloc r) (sc_stmts s)).
      { destruct Hsh as (_ & _ & Hst & _). destruct Hok as (_ & _ & _ & _ & _ & _ & _ & Hso & _). rewrite Forall_forall in *. intros st Hin.
        destruct (Hst st Hin) as (_ & _ & _ & (r & E & Hrr) & _). destruct (Hso st Hin) as (_ & [_ Hsv] & _). rewrite E in Hsv. apply Forall_inv in Hsv. destruct Hsv as (_ & P & _).
        destruct Hrr as (_ & _ & R1 & R2 & R3 & R4 & _). exists r. repeat (split; [assumption || lia|]). lia. }
      split; revert X; apply Forall_impl; intros st (r & E & P & X).
      + exists r, []. now split.
      + rewrite E. constructor; [assumption|constructor]. }
  unfold relations_of_scops in Hn. cbn [flat_map] in Hn. rewrite app_nil_r in Hn.
  destruct (sscop_total cfg p m Hc Hp Hm n s Hr Hok Hco Hf Hn) as (t & Et).
  { destruct Hsh as (_ & _ & Hst & _). revert Hst. apply Forall_impl. intros st (H1 & _ & _ & (r & E & _) & _). split; [assumption|]. eauto. }
  assert (E : exists text, osl_scop_print_scoplib [s] = Ok text).
  { unfold osl_scop_print_scoplib. rewrite HC. cbn [bind negb]. rewrite En. cbn [bind print_all]. rewrite Et. cbn [bind]. eauto. }
  destruct E as (text & E). exists text. split; [assumption|].
  rewrite (C49_scop cfg [s] text); [cbn [flat_map]; apply app_nil_r|constructor; [assumption|constructor]|assumption].
Qed.
Print Assumptions C49_prints.

(** ** A concrete case: the scop of C49_witness *)
Ltac fits_lit' := split; [unfold coherent_dims, RelSpec.access_type; cbn [rtype nout nin nloc npar ncols];
    unfold TYPE_CONTEXT, TYPE_DOMAIN, TYPE_SCATTERING, TYPE_ACCESS, TYPE_READ, TYPE_WRITE, TYPE_MAY_WRITE; lia
  |split; [apply forall_rows_lit; vm_compute; reflexivity|cbn [ncols]; lia]].
Lemma sl_statements_ok : Forall (SaveSpec.statement_ok lp64_debug 64 default_registry) sl_statements.
Proof.
  assert (F1 : forall t r, savable lp64_debug 64 t r -> relation_ok lp64_debug 64 t [r]).
  { intros t r H. split; [unfold zlength; cbn; lia|constructor; [exact H|constructor]]. }
  assert (A : forall t r, In t [TYPE_READ; TYPE_WRITE; TYPE_MAY_WRITE] -> savable lp64_debug 64 t r -> access_ok lp64_debug 64 [r]).
  { intros t r H1 H2. split; [discriminate|]. exists t. split; [assumption|now apply F1]. }
  unfold sl_statements. constructor; [|constructor; [|constructor]]; unfold SaveSpec.statement_ok; cbn [st_domain st_scattering st_access st_ext].
  - split; [apply F1; unfold ex_domain; savable_lit|]. split; [apply F1; unfold ex_scattering; savable_lit|]. split; [unfold zlength; cbn; lia|]. split.
    { constructor; [|constructor; [|constructor]]; [apply (A TYPE_READ); [cbn; tauto|unfold ex_read; savable_lit]|apply (A TYPE_WRITE); [cbn; tauto|unfold sl_write; savable_lit]]. }
    split; [reflexivity|]. split; [|unfold distinct_uris; repeat constructor; intros []].
    constructor; [|constructor]. unfold ex_ext. generic_lit. apply po_body. eexists. eexists. split; [reflexivity|]. split; [cbv; reflexivity|].
    split; [constructor; [wlit|constructor]|llit].
  - split; [apply F1; unfold sl_nodomain; savable_lit|]. split; [apply F1; unfold sl_constant; savable_lit|]. split; [unfold zlength; cbn; lia|]. split.
    { constructor; [|constructor]. apply (A TYPE_WRITE); [cbn; tauto|unfold sl_scalar; savable_lit]. }
    split; [reflexivity|]. split; [constructor|]. constructor.
Qed.
Lemma sl_scop_ok : scop_ok lp64_debug 64 default_registry sl_scop.
Proof.
  split; [reflexivity|]. split; [reflexivity|]. split; [eexists; split; [reflexivity|wlit]|]. split; [discriminate|].
  split; [split; [cbv; discriminate|]; constructor; [unfold ex_context; savable_lit|constructor]|].
  split; [right; eexists; eexists; split; [reflexivity|]; apply (C35_names_ok [lit "N"]); cbn; tauto|].
  split; [cbv; discriminate|]. split; [exact sl_statements_ok|]. split; [|no_end].
  split; [reflexivity|]. split; [|unfold distinct_uris; repeat constructor; intros []].
  constructor; [|constructor]. generic_lit. apply po_arrays. split; [reflexivity|].
  repeat (constructor; [split; [cbv; split; discriminate|wlit]|]). constructor.
Qed.
Example C49_prints_witness_fits : scop_fits 16 (cfg := lp64_debug) sl_scop /\ coherent_scop sl_scop /\ c_sizes sl_scop /\ Forall scoplib_style (sc_stmts sl_scop).
Proof.
  assert (W : Forall (wf_union lp64_debug) (relations_of_scops [sl_scop])).
  { destruct sl_scop_ok as (_ & _ & _ & _ & [_ C] & _). pose proof sl_statements_ok as S. unfold relations_of_scops. cbn [flat_map]. rewrite app_nil_r. unfold relations_of_scop.
    constructor; [revert C; apply Forall_impl; intros r H; apply H|]. cbn [sc_stmts sl_scop]. revert S. generalize sl_statements. clear. induction l as [|x l IH]; intros H; [constructor|].
    apply Forall_cons_iff in H. destruct H as [([_ H1] & [_ H2] & _ & H3 & _) H]. cbn [relations_of_statements flat_map]. apply Forall_app. split; [|now apply IH].
    constructor; [revert H1; apply Forall_impl; intros r X; apply X|]. constructor; [revert H2; apply Forall_impl; intros r X; apply X|].
    revert H3. apply Forall_impl. intros u (_ & t & _ & _ & X). revert X. apply Forall_impl. intros r X. apply X. }
  assert (S : c_sizes sl_scop).
  { unfold c_sizes. change (sc_stmts sl_scop) with sl_statements. unfold sl_statements.
    apply Forall_cons; [|apply Forall_cons; [|apply Forall_nil]]; cbn [st_domain st_ext].
    - split; [intros r Hr; assert (r = ex_domain) as -> by (cbn in Hr; intuition); unfold c_int; cbn; lia|].
      intros its e H. apply carries_lookup in H. cbn in H. injection H as <- _. cbn. lia.
    - split; [intros r Hr; assert (r = sl_nodomain) as -> by (cbn in Hr; intuition); unfold c_int; cbn; lia|].
      intros its e H. apply carries_lookup in H. discriminate. }
  assert (X : exists s, [sl_scop] = [s] /\ coherent_scop s /\ Forall scoplib_style (sc_stmts s)).
  { apply (C45_sound lp64_debug); try assumption; [now right|reflexivity|constructor; [exact S|constructor]| |vm_compute; reflexivity].
    constructor; [|constructor]. exists 64. change (sc_stmts sl_scop) with sl_statements. unfold sl_statements. split.
    - constructor; [|constructor; [|constructor]]; eexists; eexists; (split; [reflexivity|reflexivity]).
    - constructor; [|constructor; [|constructor]]; (constructor; [cbn; lia|constructor]). }
  destruct X as (s & E & Hco & Hst). assert (s = sl_scop) as -> by congruence. clear E.
  split; [|split; [assumption|split; assumption]].
  assert (U : Forall (union_fits 16) (relations_of_scop sl_scop)).
  { assert (L1 : forall r, relation_fits 16 r -> union_fits 16 [r]) by (intros r Hr; split; [vm_compute; reflexivity|constructor; [assumption|constructor]]).
    change (relations_of_scop sl_scop) with [[ex_context]; [ex_domain]; [ex_scattering]; [ex_read]; [sl_write]; [sl_nodomain]; [sl_constant]; [sl_scalar]].
    repeat (apply Forall_cons; [apply L1; unfold ex_context, ex_domain, ex_scattering, ex_read, sl_write, sl_nodomain, sl_constant, sl_scalar; fits_lit'|]). apply Forall_nil. }
  assert (X : forall g, generic_fits 16 g -> match @osl_generic_sprint lp64_debug [g] with Ok t => shortb 2046 t = true | _ => False end -> extension_fits 16 (cfg := lp64_debug) g).
  { intros g H1 H2. split; [assumption|]. intros t Et. rewrite Et in H2. now apply shortb_ok. }
  assert (A : forall r n, In r [ex_read; sl_write; sl_scalar] -> fixes_array r n -> n <= 4).
  { intros r n Hr Hn. assert (E : @osl_relation_get_array_id lp64_debug [r] = Ok n).
    { apply C18_array_id_complete; [now right| | | |constructor; [assumption|constructor]].
      - rewrite Forall_forall in W. apply W. cbn in Hr |- *. intuition subst; tauto.
      - constructor; [|constructor]. destruct Hr as [<-|[<-|[<-|[]]]]; apply forall_rows_lit; vm_compute; reflexivity.
      - cbn. unfold RelSpec.access_type. destruct Hr as [<-|[<-|[<-|[]]]]; cbn; tauto. }
    assert (E2 : exists v, @osl_relation_get_array_id lp64_debug [r] = Ok v /\ v <= 4) by (destruct Hr as [<-|[<-|[<-|[]]]]; eexists; (split; [vm_compute; reflexivity|lia])).
    destruct E2 as (v & E2 & Hv). rewrite E in E2. apply Ok_inj in E2. now subst. }
  split; [exact U|]. split; [|split; [|split; [|split; [|split]]]].
  - intros i names rest E. assert (names = Some [lit "N"]) as -> by (cbn [sc_params sl_scop] in E; congruence). cbn [elems]. split; [constructor; [vm_compute; discriminate|constructor]|vm_compute; discriminate].
  - change (sc_stmts sl_scop) with sl_statements. unfold sl_statements. constructor; [|constructor; [|constructor]]; intros names e Hc; apply carries_lookup in Hc; [|discriminate].
    assert (names = Some [lit "i"]) as -> by (assert (X2 : osl_generic_lookup [ex_ext] (lit "body") = Some (DBody (Body (Some (Some [lit "i"])) (Some (Some [lit "S(i) = A[i];"]))))) by (vm_compute; reflexivity); cbn [st_ext] in Hc; rewrite X2 in Hc; congruence).
    cbn [elems]. split; [constructor; [vm_compute; discriminate|constructor]|]. cbn. repeat constructor; vm_compute; discriminate.
  - intros a Ha. apply carries_lookup in Ha. assert (a = [(2, lit "A"); (3, lit "B"); (4, lit "x")]) as ->.
    { assert (X2 : osl_generic_lookup (sc_ext sl_scop) (lit "arrays") = Some (DArrays [(2, lit "A"); (3, lit "B"); (4, lit "x")])) by (vm_compute; reflexivity). rewrite X2 in Ha. congruence. }
    split; [repeat (constructor; [cbn [fst snd]; split; [lia|vm_compute; discriminate]|]); constructor|].
    assert (R : forall r, In r [ex_read; sl_write; sl_scalar] -> forall n, fixes_array r n -> exists x, In x [(2, lit "A"); (3, lit "B"); (4, lit "x")] /\ n <= fst x).
    { intros r Hr n Hn. exists (4, lit "x"). split; [cbn; tauto|]. cbn [fst]. now apply (A r n). }
    cbn. repeat (constructor; [repeat (constructor; [repeat (constructor; [apply R; cbn; tauto|]); constructor|]); constructor|]). constructor.
  - constructor; [|constructor]. apply X; [exact Logic.I|vm_compute; reflexivity].
  - change (sc_stmts sl_scop) with sl_statements. unfold sl_statements. constructor; [|constructor; [constructor|constructor]]. constructor; [|constructor]. apply X; [exact Logic.I|vm_compute; reflexivity].
  - constructor; [|constructor]. apply X; [exact Logic.I|vm_compute; reflexivity].
Qed.
Example C49_prints_witness : exists text, @osl_scop_print_scoplib lp64_debug [sl_scop] = Ok text /\ words text = scop_words sl_scop.
Proof.
  destruct C49_prints_witness_fits as (F & C & S & Y).
  apply (C49_prints lp64_debug 64 16); try assumption; [now right|right; now left|lia|exact sl_scop_ok|exact C49_witness_hypotheses].
Qed.
Example C53_layout_witness : file_laid_out (cfg := lp64_debug) [wr_scop; ex_scop] wr_text.
Proof. apply C53_layout; [discriminate|]. apply C35_prints. Qed.
