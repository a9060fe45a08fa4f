(** * PropScop2: a saved scop reads back as an equal scop (C35), symbols (C33) *)
From Coq Require Import ZifyBool ZifyNat.
From Verif Require Import Base IntModel VectorModel RelationModel UtilModel StringsModel RelTextModel
  Spec RelSpec TextSpec LoopLemmas TextInt UtilProofs UtilProofs2 PropUtil RelTextProofs RelTextProofs2 RelTextProofs3 RelTextProofs4
  PropStrings PropRelation PropRelText ExtModel ExtSpec ExtProofs PropExt PropExt2 PropExt3 ScopModel ScopSpec PropScop
  SaveSpec SaveProofs SaveProofs2 SaveProofs3 SaveProofs4 SaveProofs5.

(** ** Whole scops *)
Theorem C35_scop_roundtrip : forall (cfg : config) env p registry l text,
  config_ok cfg -> supported cfg p -> osl_util_get_precision env = p ->
  Forall (scop_ok cfg p registry) l -> osl_scop_print l = Ok text -> short_lines text ->
  osl_scop_pread env (File text false) registry p = Ok (map reread_scop l, File [] true).
Proof. intros cfg env p registry l text H1 H2 H3. now apply scop_roundtrip. Qed.
Print Assumptions C35_scop_roundtrip.

(** Without comments and symbols exactly the same scops are read back. *)
Lemma plain_reread g : plain_generic g -> reread_generic g = g /\ reread_file g = g.
Proof. destruct g as [i [d|]]; [|split; reflexivity]. destruct d; cbn; intros []; split; reflexivity. Qed.
Lemma plain_map f l : (forall g, plain_generic g -> f g = g) -> Forall plain_generic l -> map f l = l.
Proof. intros Hf. induction 1 as [|g l H F IH]; cbn; [reflexivity|]. now rewrite Hf, IH. Qed.
Lemma plain_statements l : Forall (fun st => Forall plain_generic (st_ext st)) l -> map reread_statement l = l.
Proof.
  induction 1 as [|[d c a e] l H F IH]; cbn [map]; [reflexivity|]. unfold reread_statement at 1. cbn [st_domain st_scattering st_access st_ext] in *.
  rewrite IH. now rewrite plain_map by (assumption || (intros g Hg; now apply plain_reread)).
Qed.
Lemma plain_scops l : Forall plain_scop l -> map reread_scop l = l.
Proof.
  induction 1 as [|[v g c ps st r e] l (H1 & H2 & H3) F IH]; cbn [map]; [reflexivity|]. unfold reread_scop at 1.
  cbn [sc_version sc_language sc_context sc_params sc_stmts sc_registry sc_ext] in *. rewrite IH, plain_statements by assumption.
  rewrite !plain_map by (assumption || (intros x Hx; now apply plain_reread)). reflexivity.
Qed.
Theorem C35_scop_identical : forall (cfg : config) env p l text,
  config_ok cfg -> supported cfg p -> osl_util_get_precision env = p ->
  Forall (scop_ok cfg p default_registry) l -> Forall plain_scop l -> osl_scop_print l = Ok text -> short_lines text ->
  osl_scop_read env (File text false) = Ok (l, File [] true).
Proof.
  intros cfg env p l text H1 H2 H3 H4 H5 H6 H7. unfold osl_scop_read. rewrite H3.
  rewrite (C35_scop_roundtrip cfg env p default_registry l text) by assumption. now rewrite plain_scops.
Qed.
Print Assumptions C35_scop_identical.

(** With comments and symbols the library's own equality accepts what is read back. *)
Theorem C35_scop_equal : forall (cfg : config) env p l text,
  config_ok cfg -> supported cfg p -> osl_util_get_precision env = p ->
  Forall (scop_ok cfg p default_registry) l -> Forall comparable_scop l -> osl_scop_print l = Ok text -> short_lines text ->
  exists l', osl_scop_read env (File text false) = Ok (l', File [] true) /\ osl_scop_equal l l' = Ok true.
Proof.
  intros cfg env p l text H1 H2 H3 H4 H5 H6 H7. exists (map reread_scop l). split.
  - unfold osl_scop_read. rewrite H3. now apply (C35_scop_roundtrip cfg).
  - apply (scops_same cfg p H1 default_registry); try assumption; [discriminate|]. repeat constructor; discriminate.
Qed.
Print Assumptions C35_scop_equal.

(** ** Statements, with names given by the caller *)
Theorem C35_statement_roundtrip : forall (cfg : config) env p registry s n text rest,
  config_ok cfg -> supported cfg p -> osl_util_get_precision env = p ->
  statement_ok cfg p registry s -> one_line_names n -> osl_statement_pprint [s] n = Ok text -> short_lines text ->
  exists blank, Forall (fun c => c = c_nl) blank /\
    osl_statement_pread env (File (text ++ rest) false) registry p = Ok (reread_statement s, File (blank ++ rest) false).
Proof.
  intros cfg env p registry s n text rest H1 H2 H3 H4 H5 H6 H7. unfold osl_statement_pprint in H6.
  assert (exists m, one_line_names (Some m) /\ statements_pprint 1 [s] m = Ok text) as (m & Hm & E).
  { destruct n as [n|]; [exists n; split; assumption|]. inv_bind H6. exists v. split; [|assumption].
    unfold osl_statement_names in E. inv_bind E. now apply names_of_ok in E. }
  cbn [statements_pprint] in E. inv_bind E. apply Ok_inj in E. rewrite app_nil_r in E. subst v.
  exact (statement_read cfg env p H1 H2 H3 registry 1 s m text [] rest H4 Hm E0 H7 (Forall_nil _)).
Qed.
Print Assumptions C35_statement_roundtrip.

(** ** Lists of extensions *)
Theorem C35_generic_roundtrip : forall (cfg : config) env p registry l text,
  config_ok cfg -> supported cfg p -> osl_util_get_precision env = p ->
  generics_ok cfg p registry l -> osl_generic_sprint l = Ok text ->
  osl_generic_sread env text registry = Ok (map reread_generic l, []).
Proof.
  intros cfg env p registry l text H1 H2 H3 (_ & H4 & H5) H6. unfold osl_generic_sread.
  pose proof (sread_ok cfg env p H1 H2 H3 registry l (S (List.length text)) [] [] text [] H4 H5 H6 bt_nil (fun _ => Forall_nil _) (Forall_nil _)) as X.
  cbn [app] in X. rewrite app_nil_r in X. apply X. lia.
Qed.
Print Assumptions C35_generic_roundtrip.

(** ** Symbols *)
Theorem C33_symbols_roundtrip : forall (cfg : config) env p l text,
  config_ok cfg -> supported cfg p -> osl_util_get_precision env = p ->
  payload_ok cfg p KSymbols (DSymbols l) -> osl_symbols_sprint l = Ok (Some text) ->
  exists rest, osl_symbols_sread env text = Ok (map reread_symbol l, rest).
Proof.
  intros cfg env p l text H1 H2 H3 H4 H5. unfold osl_symbols_sprint in H5.
  assert (Hne : l <> []) by (inversion H4; assumption).
  assert (E : data_sprint KSymbols (DSymbols l) = Ok (Some text)) by (destruct l; [congruence|exact H5]).
  pose proof (proj1 (all_reads cfg env p H1 H2 H3) KSymbols (DSymbols l) H4 text (fun s : str => S (List.length s)) [] E ltac:(intros; cbn beta; lia) (or_introl eq_refl)) as R.
  cbn [app data_sread read_back reread] in R. unfold osl_symbols_sread, osl_generic_sread_one. inv_bind R. destruct v as [l' rest].
  exists rest. match goal with H : ?a = Ok (l', rest) |- ?b = _ => change b with a; rewrite H end.
  apply Ok_inj in R. destruct l'; [discriminate|]. cbn [some_list] in R. injection R as R1. now rewrite R1.
Qed.
Print Assumptions C33_symbols_roundtrip.
Theorem C33_symbols_equal : forall (cfg : config) p l, config_ok cfg ->
  payload_ok cfg p KSymbols (DSymbols l) -> comparable (DSymbols l) -> osl_symbols_equal l (map reread_symbol l) = Ok true.
Proof.
  intros cfg p l H1 H2 H3. pose proof (proj1 (all_same cfg p H1) KSymbols (DSymbols l) H2 H3) as H.
  destruct l as [|x l]; [reflexivity|]. exact H.
Qed.
Print Assumptions C33_symbols_equal.

(** ** A concrete case: parameters, two statements with and without body, array names, a comment and a symbol *)
Fixpoint occursb (pat s : str) : bool := starts_with pat s || match s with [] => false | _ :: tl => occursb pat tl end.
Lemma occursb_ok pat : forall s, occursb pat s = false -> ~ occurs pat s.
Proof.
  induction s as [|c s IH]; intros H (a & b & E); cbn [occursb] in H; apply orb_false_iff in H; destruct H as [H1 H2];
    assert (K : forall r, starts_with pat r = false -> forall b, r <> pat ++ b)
      by (intros r Hr b' Er; assert (starts_with pat r = true) by (apply starts_with_spec; eauto); congruence).
  - destruct a; [|discriminate]. now apply (K _ H1 b).
  - destruct a as [|x a]; [now apply (K _ H1 b)|]. injection E as _ E. apply (IH H2). now exists a, b.
Qed.
Fixpoint shortb (n : nat) (s : str) : bool :=
  match s with
  | [] => true
  | c :: tl => if ceqb c c_nl then shortb 2046 tl else match n with O => false | S k => shortb k tl end
  end.
Lemma shortb_first : forall s n, shortb n s = true -> forall b c, s = b ++ c -> no_nl b -> (List.length b <= n)%nat.
Proof.
  induction s as [|x s IH]; intros n H b c E Hb; [destruct b; [cbn; lia|discriminate]|]. destruct b as [|y b]; [cbn; lia|]. injection E as <- E.
  cbn [shortb] in H. destruct (ceqb x c_nl) eqn:X; [apply ceqb_eq in X; subst; exfalso; apply Hb; now left|]. destruct n as [|n]; [discriminate|].
  cbn. assert (List.length b <= n)%nat; [|lia]. apply (IH n H b c E). intros Y. apply Hb. now right.
Qed.
Lemma shortb_mono : forall s n m, (n <= m)%nat -> shortb n s = true -> shortb m s = true.
Proof.
  induction s as [|x s IH]; intros n m L H; [reflexivity|]. cbn [shortb] in *. destruct (ceqb x c_nl); [assumption|].
  destruct n as [|n]; [discriminate|]. destruct m as [|m]; [lia|]. apply (IH n); [lia|assumption].
Qed.
Lemma shortb_any s : forall n, (n <= 2046)%nat -> shortb n s = true -> forall a r, s = a ++ r -> shortb 2046 r = true.
Proof.
  induction s as [|x s IH]; intros n L H a r E; [destruct a; [cbn in E; subst; reflexivity|discriminate]|].
  destruct a as [|y a]; [cbn in E; subst; now apply (shortb_mono _ n)|]. injection E as <- E. cbn [shortb] in H.
  destruct (ceqb x c_nl); [apply (IH 2046%nat) with a; auto|]. destruct n as [|n]; [discriminate|]. apply (IH n) with a; auto. lia.
Qed.
Lemma shortb_ok s : shortb 2046 s = true -> short_lines s.
Proof. intros H a b c E Hb. apply (shortb_first (b ++ c) 2046%nat) with c; [|reflexivity|assumption]. apply (shortb_any s 2046%nat) with a; auto. Qed.

Definition wr_names (l : list str) := Generic (Some (osl_interface_of KStrings)) (Some (DStrings (Some l))).
Definition wr_symbol := Symbol 3 0 1 [wr_names [lit "A"]] [wr_names [lit "double"]]
  [Generic (Some (osl_interface_of KRelation)) (Some (DRelation [ex_domain]))] [wr_names [lit "N"]].
Definition wr_ext := [Generic (Some (osl_interface_of KComment)) (Some (DComment (Some (lit "a <comment> # here" ++ [c_nl]))));
                      Generic (Some (osl_interface_of KArrays)) (Some (DArrays [(2, lit "A"); (1, lit "b")]));
                      Generic (Some (osl_interface_of KSymbols)) (Some (DSymbols [wr_symbol; wr_symbol]))].
Definition wr_scop := Scop 1 (Some (lit "C")) [ex_context] [wr_names [lit "N"]] ex_statements default_registry wr_ext.
Definition wr_text : str := Eval vm_compute in match @osl_scop_print lp64_debug [wr_scop; ex_scop] with Ok t => t | _ => [] end.
Example C35_prints : @osl_scop_print lp64_debug [wr_scop; ex_scop] = Ok wr_text /\ short_lines wr_text.
Proof. split; [vm_compute; reflexivity|]. apply shortb_ok. vm_compute. reflexivity. Qed.
Ltac not_in := match goal with |- forall text, ?a = Ok (Some text) -> _ =>
  let t := eval vm_compute in a in intros text Et; assert (X : a = t) by (vm_compute; reflexivity); rewrite X in Et; clear X; apply Ok_inj in Et; apply Some_eq in Et; subst text; apply occursb_ok; vm_compute; reflexivity end.
Lemma tag_lit u : forallb (fun c => is_upper c || is_lower c || ceqb c c_under) u = true -> u <> [] -> tag_name u.
Proof.
  intros H Hn. split; [assumption|]. apply Forall_forall. intros c Hc. rewrite forallb_forall in H. specialize (H _ Hc).
  apply orb_true_iff in H. destruct H as [H|H]; [apply orb_true_iff in H; tauto|]. apply ceqb_eq in H. tauto.
Qed.
Ltac generic_lit := apply go_some; [apply tag_lit; [reflexivity|discriminate]|reflexivity| |not_in].
Example C35_names_ok l : In l [[lit "N"]; [lit "A"]; [lit "double"]] -> generic_ok lp64_debug 64 default_registry (wr_names l).
Proof.
  intros [<-|[<-|[<-|[]]]]; (generic_lit; apply po_strings; [discriminate|constructor; [wlit|constructor]]).
Qed.
Lemma ex_domain_savable : savable lp64_debug 64 TYPE_DOMAIN ex_domain.
Proof. unfold ex_domain. savable_lit. Qed.
Lemma wr_cons l : symbols_ok lp64_debug 64 l -> symbols_ok lp64_debug 64 (wr_symbol :: l).
Proof.
    intros Hl. apply so_cons; [cbn; tauto|cbv; split; discriminate|cbv; split; discriminate| | | | |assumption];
      try (apply C35_names_ok; cbn; tauto).
    generic_lit. apply (po_relation _ _ TYPE_DOMAIN); [cbn; tauto|apply ex_domain_savable].
Qed.
Lemma wr_symbols_ok : payload_ok lp64_debug 64 KSymbols (DSymbols [wr_symbol; wr_symbol]).
Proof.
  apply po_symbols; [discriminate|reflexivity|apply wr_cons, wr_cons, so_nil|].
  match goal with |- forall text, ?a = Ok (Some text) -> _ =>
  let t := eval vm_compute in a in intros text Et; assert (X : a = t) by (vm_compute; reflexivity); rewrite X in Et; clear X; apply Ok_inj in Et; apply Some_eq in Et; subst text end.
  cbn [List.length]. lia.
Qed.
Lemma ex_statements_ok : Forall (statement_ok lp64_debug 64 default_registry) ex_statements.
Proof.
  assert (Hr : savable lp64_debug 64 TYPE_READ ex_read) by (unfold ex_read; savable_lit).
  assert (Hs : savable lp64_debug 64 TYPE_SCATTERING ex_scattering) by (unfold ex_scattering; savable_lit).
  assert (Hs3 : savable lp64_debug 64 TYPE_SCATTERING ex_scattering3) by (unfold ex_scattering3; savable_lit).
  pose proof ex_domain_savable as Hd.
  assert (A : forall u, u <> [] -> (List.length u <= 2)%nat -> Forall (savable lp64_debug 64 TYPE_READ) u -> access_ok lp64_debug 64 u).
  { intros u H1 H2 H3. split; [assumption|]. exists TYPE_READ. split; [cbn; tauto|]. split; [unfold zlength; lia|assumption]. }
  assert (F1 : forall t r, savable lp64_debug 64 t r -> relation_ok lp64_debug 64 t [r]).
  { intros t r H. split; [unfold zlength; cbn; lia|constructor; [exact H|constructor]]. }
  assert (F2 : forall t r, savable lp64_debug 64 t r -> relation_ok lp64_debug 64 t [r; r]).
  { intros t r H. split; [unfold zlength; cbn; lia|constructor; [exact H|constructor; [exact H|constructor]]]. }
  constructor; [|constructor; [|constructor]]; unfold statement_ok; cbn [st_domain st_scattering st_access st_ext].
  - split; [now apply F1|]. split; [now apply F1|]. split; [unfold zlength; cbn; lia|]. split.
    { constructor; [|constructor]. apply A; [discriminate|cbn; lia|]. now apply F1. }
    split; [reflexivity|]. split; [|unfold distinct_uris; repeat constructor; intros []].
    constructor; [|constructor]. unfold ex_ext. generic_lit. apply po_body. eexists. eexists. split; [reflexivity|]. split; [cbv; reflexivity|].
    split; [constructor; [wlit|constructor]|llit].
  - split; [now apply F2|]. split; [now apply F1|]. split; [unfold zlength; cbn; lia|]. split.
    { constructor; [|constructor; [|constructor]]; apply A; try discriminate; try (cbn; lia); [now apply F1|now apply F2]. }
    split; [reflexivity|]. split; [constructor|]. constructor.
Qed.
Ltac no_end := match goal with |- forall text, ?a = Ok text -> _ =>
  let t := eval vm_compute in a in intros text Et; assert (X : a = t) by (vm_compute; reflexivity); rewrite X in Et; clear X; apply Ok_inj in Et; subst text; apply occursb_ok; vm_compute; reflexivity end.
Example C35_scop_ok : Forall (scop_ok lp64_debug 64 default_registry) [wr_scop; ex_scop] /\ Forall comparable_scop [wr_scop; ex_scop].
Proof.
  assert (C : relation_ok lp64_debug 64 TYPE_CONTEXT [ex_context]).
  { split; [cbv; discriminate|]. constructor; [unfold ex_context; savable_lit|constructor]. }
  split.
  - constructor; [|constructor; [|constructor]].
    + split; [reflexivity|]. split; [reflexivity|]. split; [eexists; split; [reflexivity|wlit]|]. split; [discriminate|]. split; [exact C|].
      split; [right; eexists; eexists; split; [reflexivity|]; apply (C35_names_ok [lit "N"]); cbn; tauto|].
      split; [cbv; discriminate|]. split; [exact ex_statements_ok|]. split; [|no_end].
      split; [reflexivity|]. split.
      * constructor; [|constructor; [|constructor; [|constructor]]]; generic_lit.
        -- apply po_comment. cbn. lia.
        -- apply po_arrays. split; [reflexivity|]. constructor; [split; [cbv; split; discriminate|wlit]|constructor; [split; [cbv; split; discriminate|wlit]|constructor]].
        -- exact wr_symbols_ok.
      * unfold distinct_uris. cbn. repeat constructor; cbn; intuition discriminate.
    + split; [reflexivity|]. split; [reflexivity|]. split; [eexists; split; [reflexivity|wlit]|]. split; [discriminate|]. split; [exact C|].
      split; [now left|]. split; [cbv; discriminate|]. split; [exact ex_statements_ok|]. split; [|no_end].
      split; [reflexivity|]. split; [constructor|]. constructor.
  - repeat constructor; cbn; tauto.
Qed.
(** All hypotheses of C35_scop_roundtrip, C35_scop_equal together, and the value read back, computed. *)
Example C35_witness : @osl_scop_pread lp64_debug (Some (lit "64")) (File wr_text false) default_registry 64 =
  Ok (map reread_scop [wr_scop; ex_scop], File [] true) /\ @osl_util_get_precision lp64_debug (Some (lit "64")) = 64 /\ supported lp64_debug 64 /\ config_ok lp64_debug.
Proof. split; [vm_compute; reflexivity|]. split; [vm_compute; reflexivity|]. split; [right; now left|now right]. Qed.
Example C35_identical_witness : Forall plain_scop [ex_scop].
Proof. repeat constructor. Qed.

(** ** Where the printed file does not read back *)
(** A comment read from a string gains a newline, so one more at every save and load. *)
Theorem C35_comment_refuted : exists l text, generics_ok lp64_debug 64 default_registry l /\
  @osl_generic_sprint lp64_debug l = Ok text /\ forall env, exists l', @osl_generic_sread lp64_debug env text default_registry = Ok (l', []) /\ l' <> l.
Proof.
  exists [Generic (Some (osl_interface_of KComment)) (Some (DComment (Some (lit "x"))))]. eexists. split; [|split; [vm_compute; reflexivity|]].
  - split; [reflexivity|]. split; [constructor; [|constructor]; generic_lit; apply po_comment; cbn; lia|]. unfold distinct_uris. repeat constructor. intros [].
  - intros env. eexists. split; [vm_compute; reflexivity|]. discriminate.
Qed.
Print Assumptions C35_comment_refuted.
(** A scop without any relation, as made by osl_scop_malloc: the integrity check accepts it, and printing it writes before
    an array, because minus one names are generated. *)
Theorem C35_empty_scop_refuted : forall (cfg : config) v lang ps reg ext,
  osl_scop_integrity_check [Scop v lang [] ps [] reg ext] = Ok true /\ osl_scop_print [Scop v lang [] ps [] reg ext] = UB.
Proof. intros. split; reflexivity. Qed.
Print Assumptions C35_empty_scop_refuted.
(** A scop without context, which passes the integrity check and is printed, cannot be read: the library exits. *)
Definition no_context := Scop 1 (Some (lit "C")) [] [] ex_statements default_registry [].
Theorem C35_no_context_refuted : exists text, @osl_scop_integrity_check lp64_debug [no_context] = Ok true /\ @osl_scop_print lp64_debug [no_context] = Ok text /\
  @osl_scop_read lp64_debug (Some (lit "64")) (File text false) = Err.
Proof. eexists. split; [vm_compute; reflexivity|]. split; [vm_compute; reflexivity|]. vm_compute. reflexivity. Qed.
Print Assumptions C35_no_context_refuted.
(** Parameters of another kind than strings are printed after the flag 0, so the reader takes their tag for the number of
    statements and exits. *)
Definition odd_params := Scop 1 (Some (lit "C")) [ex_context] [Generic (Some (osl_interface_of KScatnames)) (Some (DScatnames (Some (Some [lit "N"]))))] [] default_registry [].
Theorem C35_parameters_refuted : exists text, @osl_scop_integrity_check lp64_debug [odd_params] = Ok true /\ @osl_scop_print lp64_debug [odd_params] = Ok text /\
  @osl_scop_read lp64_debug (Some (lit "64")) (File text false) = Err.
Proof. eexists. split; [vm_compute; reflexivity|]. split; [vm_compute; reflexivity|]. vm_compute. reflexivity. Qed.
Print Assumptions C35_parameters_refuted.
(** A symbol with a missing field is printed without it, and the next extension takes its place. *)
Definition no_identifier := Symbol 3 0 1 [] [wr_names [lit "double"]] [wr_names [lit "all"]] [wr_names [lit "N"]].
Theorem C33_symbols_refuted : exists text, @osl_symbols_sprint lp64_debug [no_identifier] = Ok (Some text) /\
  @osl_symbols_sread lp64_debug (Some (lit "64")) text = Ok ([Symbol 3 0 1 [wr_names [lit "double"]] [wr_names [lit "all"]] [wr_names [lit "N"]] []], []).
Proof. eexists. split; [vm_compute; reflexivity|]. vm_compute. reflexivity. Qed.
Print Assumptions C33_symbols_refuted.
(** Only the first symbols of two lists are compared. *)
Theorem C33_symbols_equal_refuted : forall (cfg : config) x l1 l2 b, symbol_equal x x = Ok b ->
  osl_symbols_equal (x :: l1) (x :: l2) = Ok b.
Proof. intros cfg x l1 l2 b H. exact H. Qed.
Example C33_symbols_equal_ex : @osl_symbols_equal lp64_debug [wr_symbol] [wr_symbol; no_identifier] = Ok true.
Proof. vm_compute. reflexivity. Qed.
Print Assumptions C33_symbols_equal_refuted.
(** A printed list of more than 2048 characters is refused. *)
Theorem C33_symbols_long_refuted : exists l text, @osl_symbols_sprint lp64_debug l = Ok (Some text) /\ symbols_ok lp64_debug 64 l /\
  forall env, @osl_symbols_sread lp64_debug env text = Err.
Proof.
  exists (repeat wr_symbol 6). eexists. split; [vm_compute; reflexivity|]. split.
  - cbn [repeat]. repeat apply wr_cons. apply so_nil.
  - intros env. vm_compute. reflexivity.
Qed.
Print Assumptions C33_symbols_long_refuted.
(** Two extensions of the same URI: printed, and the program exits when reading. *)
Theorem C35_duplicate_refuted : exists l text, Forall (generic_ok lp64_debug 64 default_registry) l /\ @osl_generic_sprint lp64_debug l = Ok text /\
  forall env, @osl_generic_sread lp64_debug env text default_registry = Err.
Proof.
  exists [wr_names [lit "A"]; wr_names [lit "N"]]. eexists. split; [|split; [vm_compute; reflexivity|]].
  - constructor; [apply C35_names_ok; cbn; tauto|constructor; [apply C35_names_ok; cbn; tauto|constructor]].
  - intros env. vm_compute. reflexivity.
Qed.
Print Assumptions C35_duplicate_refuted.
