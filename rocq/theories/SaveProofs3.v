(** * SaveProofs3: reading back statements and scops *)
From Coq Require Import ZifyBool ZifyNat.
From Verif Require Import Base IntModel VectorModel RelationModel UtilModel StringsModel RelTextModel
  Spec RelSpec TextSpec LoopLemmas TextInt UtilProofs UtilProofs2 PropUtil RelTextProofs RelTextProofs2 RelTextProofs3 RelTextProofs4
  PropStrings PropRelText ExtModel ExtSpec ExtProofs PropExt PropExt2 PropExt3 ScopModel SaveSpec SaveProofs SaveProofs2.

Lemma short_cons s : short_lines s -> short_lines (c_nl :: s).
Proof.
  intros H a b c E Hb. destruct a as [|x a]; cbn [app] in E.
  - destruct b as [|y b]; [cbn; lia|]. injection E as <- _. exfalso. apply Hb. now left.
  - injection E as <- E. now apply (H a b c).
Qed.
Lemma short_nls b s : nls b -> short_lines s -> short_lines (b ++ s).
Proof. induction 1 as [|c b -> H IH]; intros Hs; [assumption|]. cbn [app]. apply short_cons. auto. Qed.
Lemma short_mid a b c : short_lines (a ++ b ++ c) -> short_lines b.
Proof. intros H. apply short_lines_tail in H. now apply short_lines_left in H. Qed.
Lemma after_line : forall l x a w, l ++ c_nl :: x = a ++ w -> (List.length l < List.length a)%nat -> exists a', x = a' ++ w.
Proof.
  induction l as [|c l IH]; intros x [|d a] w E L; cbn [app List.length] in *; try lia.
  - injection E as _ E. eauto.
  - injection E as _ E. apply (IH x a w E). lia.
Qed.
Lemma short_line l x : no_nl l -> (List.length l <= 2046)%nat -> short_lines x -> short_lines (l ++ c_nl :: x).
Proof.
  intros Hl L Hx a y z E Hy. destruct (Nat.le_gt_cases (List.length a) (List.length l)) as [A|A].
  - destruct (Nat.le_gt_cases (List.length (a ++ y)) (List.length l)) as [B|B]; [rewrite app_length in B; lia|].
    exfalso. apply Hy. apply (f_equal (fun s => nth_error s (List.length l))) in E. rewrite nth_error_app2, Nat.sub_diag in E by lia.
    cbn [nth_error] in E. rewrite app_assoc, nth_error_app1, nth_error_app2 in E by lia. symmetry in E. now apply nth_error_In in E.
  - destruct (after_line l x a (y ++ z) E A) as (a' & Ea). now apply (Hx a' y z).
Qed.
Lemma short_blank b s : blank_lines b -> short_lines b -> short_lines s -> short_lines (b ++ s).
Proof.
  induction 1 as [|l b Hl Hw H IH]; intros Hb Hs; [assumption|]. rewrite <- app_assoc. cbn [app]. apply short_line; [assumption| |].
  - apply (Hb [] l (c_nl :: b)); [reflexivity|assumption].
  - apply IH; [|assumption]. apply (short_lines_tail (l ++ [c_nl])). rewrite <- app_assoc. exact Hb.
Qed.
Lemma print2_no_nl v : no_nl (print2 v).
Proof.
  unfold print2. intros X. apply in_app_or in X. destruct X as [X|X]; [|now apply print_Z_no_nl in X].
  destruct (print_Z v) as [|? [|? ?]]; cbn in X; try destruct X as [X|X]; try discriminate; destruct X.
Qed.
Lemma bl_rule w : no_nl w -> blank_lines (rule_title w).
Proof.
  intros H. unfold rule_title, ln. rewrite app_assoc. apply (bl_comment (lit " =============================================== " ++ w)).
  apply no_nl_app. split; [apply no_nlb_ok; reflexivity|assumption].
Qed.
Lemma bl_section n w : no_nl w -> blank_lines (section_title n w).
Proof.
  intros H. unfold section_title, ln. rewrite !app_assoc. rewrite <- (app_assoc _ (print2 n) w).
  apply (bl_comment (lit " ---------------------------------------------- " ++ print2 n ++ w)).
  apply no_nl_app. split; [apply no_nlb_ok; reflexivity|]. apply no_nl_app. split; [apply print2_no_nl|assumption].
Qed.

Section P.
Variable cfg : config.
Variable env : option str.
Variable p : Z.
Hypothesis Hcfg : config_ok cfg.
Hypothesis Hsup : supported cfg p.
Hypothesis Hp : osl_util_get_precision env = p.

(** ** Lists of relations *)
Inductive rels_text : list (list relation) -> str -> Prop :=
| rt_nil : rels_text [] []
| rt_blank b l t : blank_lines b -> rels_text l t -> rels_text l (b ++ t)
| rt_rel u t l t' : (short_lines t -> forall rest e, osl_relation_pread (File (t ++ rest) e) p = Ok (u, File rest e)) ->
    rels_text l t' -> rels_text (u :: l) (t ++ t').
Lemma rels_app l1 t1 l2 t2 : rels_text l1 t1 -> rels_text l2 t2 -> rels_text (l1 ++ l2) (t1 ++ t2).
Proof. induction 1; intros H2; cbn [app]; [assumption| |]; rewrite <- app_assoc; [apply rt_blank|apply rt_rel]; auto. Qed.
Lemma rels_nil t : rels_text [] t -> blank_lines t.
Proof.
  intros H. remember (@nil (list relation)) as l eqn:El. induction H; [apply bl_nil|apply blank_lines_app; auto|discriminate].
Qed.
Lemma read_rels l t : rels_text l t -> forall b rest e, blank_lines b -> short_lines (b ++ t) ->
  exists b', blank_lines b' /\ short_lines b' /\ read_relations (List.length l) (File (b ++ t ++ rest) e) p = Ok (l, File (b' ++ rest) e).
Proof.
  induction 1 as [|b0 l t Hb0 H IH|u t l t' Hu H IH]; intros b rest e Hb Hs.
  - exists b. rewrite app_nil_r in Hs. split; [assumption|]. split; [assumption|]. reflexivity.
  - destruct (IH (b ++ b0) rest e) as (b' & H1 & H2 & H3); [now apply blank_lines_app|now rewrite <- app_assoc|].
    exists b'. split; [assumption|]. split; [assumption|]. rewrite <- !app_assoc in H3. rewrite <- !app_assoc. exact H3.
  - assert (S1 : short_lines b) by now apply short_lines_left in Hs.
    assert (S2 : short_lines t) by now apply short_mid in Hs.
    assert (S3 : short_lines t') by (apply short_lines_tail in Hs; now apply short_lines_tail in Hs).
    destruct (IH [] rest e) as (b' & H1 & H2 & H3); [constructor|assumption|]. cbn [app] in H3.
    exists b'. split; [assumption|]. split; [assumption|]. cbn [List.length read_relations]. rewrite <- !app_assoc.
    erewrite file_relation; [|assumption|assumption|apply Hu; assumption]. cbn [bind]. rewrite H3. reflexivity.
Qed.
Definition opt (u : list relation) : list (list relation) := match u with [] => [] | _ => [u] end.
Lemma rel_saved t u on text : relation_ok cfg p t u -> printable_type t -> one_line_names on -> osl_relation_spprint u on = Ok text ->
  rels_text (opt u) text.
Proof.
  intros [Hl Hu] Ht Hon E. destruct u as [|r u].
  - cbn in E. apply Ok_inj in E. subst. constructor.
  - cbn [opt]. rewrite <- (app_nil_r text). apply rt_rel; [|constructor]. intros Hs rest e.
    apply (C20_file_roundtrip cfg p t (r :: u) on); try assumption. discriminate.
Qed.
Lemma access_printable t : In t [TYPE_READ; TYPE_WRITE; TYPE_MAY_WRITE] -> printable_type t.
Proof. unfold printable_type. cbn. tauto. Qed.
Lemma access_saved l on : Forall (access_ok cfg p) l -> one_line_names on -> forall text, print_elts l on = Ok text -> rels_text l text.
Proof.
  intros H Hon. induction H as [|u l (Hne & t & Ht & Hu) H IH]; intros text E; cbn [print_elts] in E.
  - apply Ok_inj in E. subst. constructor.
  - inv_bind E. inv_bind E. apply Ok_inj in E. subst text. change (u :: l) with ([u] ++ l). destruct u as [|r u]; [congruence|].
    inv_bind E0. apply Ok_inj in E0. subst v. rewrite <- app_assoc.
    apply rels_app; [apply (rel_saved t (r :: u) on); [assumption|now apply access_printable|assumption|assumption]|].
    destruct l; [cbn [app]; now apply IH|]. apply rt_blank; [apply bl_nl|now apply IH].
Qed.
Lemma count_all l : Forall (fun u : list relation => u <> []) l -> osl_relation_list_count l = zlength l.
Proof.
  unfold osl_relation_list_count. induction 1 as [|u l H F IH]; [reflexivity|]. cbn [filter]. destruct u; [congruence|].
  rewrite !zlength_cons. now rewrite IH.
Qed.
Lemma accesses_saved l on text : Forall (access_ok cfg p) l -> one_line_names on ->
  osl_relation_list_pprint_elts l on = Ok text -> rels_text l text.
Proof.
  intros H Hon E. unfold osl_relation_list_pprint_elts in E. rewrite count_all in E by (revert H; apply Forall_impl; unfold access_ok; tauto).
  destruct (0 <? zlength l) eqn:X; [now apply (access_saved l on)|].
  destruct l; [|rewrite zlength_cons in X; pose proof (zlength_nonneg l0); lia].
  apply Ok_inj in E. subst text. rewrite <- app_nil_r. apply rt_blank; [|constructor]. apply bl_lit. eexists. split; reflexivity.
Qed.

(** ** Dispatch *)
Lemma rel_type t u : relation_ok cfg p t u -> forall r v, u = r :: v -> rtype r = t.
Proof. intros [_ H] r v ->. apply Forall_cons_iff in H. destruct H as [(_ & _ & H & _) _]. exact H. Qed.
Lemma filter_all {A} (f : A -> bool) l : (forall x, In x l -> f x = true) -> filter f l = l.
Proof. induction l as [|x l IH]; intros H; [reflexivity|]. cbn. rewrite H by now left. rewrite IH; [reflexivity|]. intros y Hy. apply H. now right. Qed.
Lemma filter_none {A} (f : A -> bool) l : (forall x, In x l -> f x = false) -> filter f l = [].
Proof. induction l as [|x l IH]; intros H; [reflexivity|]. cbn. rewrite H by now left. rewrite IH; [reflexivity|]. intros y Hy. apply H. now right. Qed.
Lemma match_access u : access_ok cfg p u ->
  list_match TYPE_DOMAIN u = false /\ list_match TYPE_SCATTERING u = false /\ list_match TYPE_ACCESS u = true.
Proof.
  intros (Hne & t & Ht & Hu). destruct u as [|r u]; [congruence|]. pose proof (rel_type _ _ Hu r u eq_refl) as E.
  unfold list_match, osl_relation_is_access. rewrite E. destruct Ht as [<-|[<-|[<-|[]]]]; vm_compute; auto.
Qed.
Lemma match_opt t u : relation_ok cfg p t u -> t = TYPE_DOMAIN \/ t = TYPE_SCATTERING ->
  filter (list_match t) (opt u) = opt u /\
  (forall t', In t' [TYPE_DOMAIN; TYPE_SCATTERING; TYPE_ACCESS] -> t' <> t -> filter (list_match t') (opt u) = []).
Proof.
  intros Hu Ht. destruct u as [|r u]; [split; reflexivity|]. pose proof (rel_type _ _ Hu r u eq_refl) as E. cbn [opt].
  split.
  - cbn [filter list_match]. unfold osl_relation_is_access. rewrite E. destruct Ht as [->| ->]; reflexivity.
  - intros t' Ht' Hn. cbn [filter list_match]. unfold osl_relation_is_access. rewrite E.
    destruct Ht as [->| ->]; destruct Ht' as [<-|[<-|[<-|[]]]]; (congruence || reflexivity).
Qed.
Lemma opt_nonnull u : Forall (fun u : list relation => u <> []) (opt u).
Proof. destruct u; repeat constructor. discriminate. Qed.
Lemma opt_length u : zlength (opt u) <= 1.
Proof. destruct u; unfold zlength; cbn; lia. Qed.
Lemma opt_hd u : hd [] (opt u) = u.
Proof. destruct u; reflexivity. Qed.
Lemma zlength_app' {A} (a b : list A) : zlength (a ++ b) = zlength a + zlength b.
Proof. unfold zlength. rewrite app_length. lia. Qed.
Lemma dispatch_ok d c acc : relation_ok cfg p TYPE_DOMAIN d -> relation_ok cfg p TYPE_SCATTERING c -> Forall (access_ok cfg p) acc ->
  osl_statement_dispatch (opt d ++ opt c ++ acc) = Ok (Statement d c acc []).
Proof.
  intros Hd Hc Ha. destruct (match_opt _ _ Hd (or_introl eq_refl)) as [D1 D2]. destruct (match_opt _ _ Hc (or_intror eq_refl)) as [C1 C2].
  rewrite Forall_forall in Ha.
  assert (A1 : filter (list_match TYPE_DOMAIN) acc = []) by (apply filter_none; intros x Hx; apply (match_access _ (Ha _ Hx))).
  assert (A2 : filter (list_match TYPE_SCATTERING) acc = []) by (apply filter_none; intros x Hx; apply (match_access _ (Ha _ Hx))).
  assert (A3 : filter (list_match TYPE_ACCESS) acc = acc) by (apply filter_all; intros x Hx; apply (match_access _ (Ha _ Hx))).
  unfold osl_statement_dispatch, osl_relation_list_filter. rewrite !filter_app, D1, C1, A1, A2, A3.
  rewrite (D2 TYPE_SCATTERING) by (cbn; auto || discriminate). rewrite (D2 TYPE_ACCESS) by (cbn; auto || discriminate).
  rewrite (C2 TYPE_DOMAIN) by (cbn; auto || discriminate). rewrite (C2 TYPE_ACCESS) by (cbn; auto || discriminate).
  cbn [app]. rewrite !app_nil_r.
  assert (An : Forall (fun u : list relation => u <> []) acc) by (apply Forall_forall; intros x Hx; apply (Ha _ Hx)).
  rewrite !count_all; [|repeat (apply Forall_app; split); auto using opt_nonnull|assumption|apply opt_nonnull|apply opt_nonnull].
  pose proof (opt_length d). pose proof (opt_length c). rewrite !zlength_app'.
  destruct (Z.ltb_spec 1 (zlength (opt d))) as [X|_]; [lia|]. destruct (Z.ltb_spec 1 (zlength (opt c))) as [X|_]; [lia|].
  rewrite !Z.add_assoc. rewrite Z.eqb_refl. cbn [negb]. now rewrite !opt_hd.
Qed.

(** ** Names *)
Lemma word_no_nl n x : word_string n x -> no_nl x.
Proof. intros (_ & _ & H) X. destruct (H _ X) as [Y _]. discriminate. Qed.
Lemma lookup_in l u d : osl_generic_lookup l u = Some d -> exists g, In g l /\ g_data g = Some d.
Proof.
  induction l as [|g l IH]; [discriminate|]. cbn [osl_generic_lookup]. destruct (has_uri g u).
  - intros H. exists g. split; [now left|assumption].
  - intros H. destruct (IH H) as (x & Hx & E). exists x. split; [now right|assumption].
Qed.
Lemma lookup_payload registry l u d : Forall (generic_ok cfg p registry) l -> osl_generic_lookup l u = Some d -> exists k, payload_ok cfg p k d.
Proof.
  intros H E. destruct (lookup_in _ _ _ E) as (g & Hg & Ed). rewrite Forall_forall in H. specialize (H _ Hg). destruct H as [? ? k d' ? ? H]. cbn in Ed.
  injection Ed as <-. eauto.
Qed.
Lemma body_names registry l n b : Forall (generic_ok cfg p registry) l -> one_line_names (Some n) -> body_of l = Ok b ->
  one_line_names (Some (with_iterators n b)).
Proof.
  intros Hl (H1 & H2 & H3 & H4 & H5) E. unfold body_of in E. destruct (osl_generic_lookup l (uri_of KBody)) as [d|] eqn:L.
  - destruct d; try discriminate. apply Ok_inj in E. subst b. destruct (lookup_payload _ _ _ _ Hl L) as (k & X). inversion X as [|b' Hbo| | | | | | | | | | | | | | |]; subst.
    destruct Hbo as (its & e & -> & _ & Hw & _). cbn. repeat (split; [assumption|]). split; [|auto].
    revert Hw. apply Forall_impl. apply word_no_nl.
  - apply Ok_inj in E. subst b. cbn. auto.
Qed.

(** ** Statements *)
Lemma statement_read registry k s n text b rest : statement_ok cfg p registry s -> one_line_names (Some n) ->
  statement_pprint_one k s n = Ok text -> short_lines text -> nls b ->
  exists b', nls b' /\ osl_statement_pread env (File (b ++ text ++ rest) false) registry p = Ok (reread_statement s, File (b' ++ rest) false).
Proof.
  intros (Hd & Hc & Hl & Ha & Hx & He & Hu) Hn E Hs Hb. destruct s as [d c acc ext]. cbn [st_domain st_scattering st_access st_ext] in *.
  unfold statement_pprint_one in E. cbn [st_domain st_scattering st_access st_ext] in E.
  inv_bind E. pose proof (body_names _ _ _ _ He Hn E0) as Hn'. set (n' := with_iterators n v) in *. clearbody n'. clear v E0.
  inv_bind E. rename v into td, E0 into Ed. inv_bind E. rename v into tc, E0 into Ec. inv_bind E. rename v into ta, E0 into Ea.
  inv_bind E. rename v into te, E0 into Ee. apply Ok_inj in E.
  assert (T : printable_type TYPE_DOMAIN /\ printable_type TYPE_SCATTERING) by (unfold printable_type; cbn; tauto). destruct T as [T1 T2].
  pose proof (rel_saved _ _ _ _ Hd T1 Hn' Ed) as Rd. pose proof (rel_saved _ _ _ _ Hc T2 Hn' Ec) as Rc.
  pose proof (accesses_saved _ _ _ Ha Hn' Ea) as Ra.
  set (nb := (if is_null d then 0 else 1) + (if is_null c then 0 else 1) + osl_relation_list_count acc) in *.
  assert (Nb : nb = zlength (opt d ++ opt c ++ acc)).
  { subst nb. rewrite count_all by (revert Ha; apply Forall_impl; unfold access_ok; tauto). rewrite !zlength_app'.
    destruct d, c; cbn [is_null opt]; unfold zlength; cbn [List.length]; lia. }
  assert (Hnb : c_int nb). { rewrite Nb. rewrite !zlength_app'. pose proof (opt_length d). pose proof (opt_length c).
    pose proof (zlength_nonneg (opt d)). pose proof (zlength_nonneg (opt c)). pose proof (zlength_nonneg acc). unfold c_int. lia. }
  set (R := [c_nl] ++ section_title k (lit ".1 Domain") ++ td ++ [c_nl] ++ section_title k (lit ".2 Scattering") ++ tc ++ [c_nl]
      ++ section_title k (lit ".3 Access") ++ ta ++ [c_nl]).
  set (B := section_title k (lit ".4 Statement Extensions") ++ ln (lit "# Number of Statement Extensions")).
  set (A := rule_title (lit "Statement " ++ print_Z k) ++ ln (lit "# Number of relations describing the statement:")).
  assert (Et : text = A ++ lnZ nb ++ R ++ B ++ lnZ (osl_generic_number ext) ++ te ++ [c_nl]).
  { subst text A R B. rewrite <- !app_assoc. reflexivity. }
  clear E. subst text.
  assert (HA : blank_lines A).
  { subst A. apply blank_lines_app; [apply bl_rule; apply no_nl_app; split; [apply no_nlb_ok; reflexivity|apply print_Z_no_nl]|].
    apply bl_lit. eexists. split; reflexivity. }
  assert (HB : blank_lines B).
  { subst B. apply blank_lines_app; [apply bl_section, no_nlb_ok; reflexivity|]. apply bl_lit. eexists. split; reflexivity. }
  assert (HR : rels_text (opt d ++ opt c ++ acc) R).
  { subst R. apply rt_blank; [apply bl_nl|]. apply rt_blank; [apply bl_section, no_nlb_ok; reflexivity|]. apply rels_app; [assumption|].
    apply rt_blank; [apply bl_nl|]. apply rt_blank; [apply bl_section, no_nlb_ok; reflexivity|]. apply rels_app; [assumption|].
    apply rt_blank; [apply bl_nl|]. apply rt_blank; [apply bl_section, no_nlb_ok; reflexivity|]. rewrite <- (app_nil_r acc). apply rels_app; [assumption|].
    rewrite <- (app_nil_r [c_nl]). apply rt_blank; [apply bl_nl|constructor]. }
  assert (SA : short_lines A) by now apply short_lines_left in Hs.
  assert (SR : short_lines R) by (apply short_lines_tail, short_lines_tail, short_lines_left in Hs; assumption).
  assert (SB : short_lines (R ++ B)).
  { apply short_lines_tail, short_lines_tail in Hs. rewrite app_assoc in Hs. now apply short_lines_left in Hs. }
  clearbody A B nb. unfold osl_statement_pread, osl_relation_list_pread. rewrite <- !app_assoc.
  rewrite (app_assoc b A). rewrite file_int; [|apply blank_lines_app; [now apply nls_lines|assumption]|now apply short_nls|assumption]. cbn [bind].
  pose proof (zlength_nonneg (opt d ++ opt c ++ acc)) as Hz.
  destruct (Z.ltb_spec nb 0) as [X|_]; [lia|].
  assert (Hext : c_int (osl_generic_number ext)). { unfold osl_generic_number, zlength, c_int. unfold count_ok in Hx. lia. }
  assert (Fin : forall l b', blank_lines b' -> short_lines (b' ++ B) -> osl_statement_dispatch l = Ok (Statement d c acc []) ->
    exists b'', nls b'' /\
     (s <- osl_statement_dispatch l ;;
      '(n0, f) <- osl_util_read_int_f (File (b' ++ B ++ lnZ (osl_generic_number ext) ++ te ++ [c_nl] ++ rest) false) ;;
      '(e, f) <- read_extensions env (Z.to_nat n0) registry [] f ;;
      Ok (Statement (st_domain s) (st_scattering s) (st_access s) e, f))
     = Ok (reread_statement (Statement d c acc ext), File (b'' ++ rest) false)).
  { intros l b' H1 H2 H3. rewrite H3. cbn [bind st_domain st_scattering st_access]. rewrite (app_assoc b' B).
    rewrite file_int; [|now apply blank_lines_app|assumption|assumption]. cbn [bind].
    replace (Z.to_nat (osl_generic_number ext)) with (List.length ext) by (unfold osl_generic_number, zlength; lia).
    assert (Ee' : osl_generic_sprint ext = Ok te).
    { destruct ext as [|g ext]; [cbn in Ee; exact Ee|]. unfold osl_generic_number in Ee. rewrite zlength_cons in Ee. pose proof (zlength_nonneg ext).
      destruct (Z.ltb_spec 0 (1 + zlength ext)) as [_|Y]; [exact Ee|lia]. }
    destruct (read_extensions_ok cfg env p Hcfg Hsup Hp registry ext [] [] te ([c_nl] ++ rest)) as (b'' & N & Y); try assumption; [constructor|].
    cbn [app] in Y |- *. rewrite Y. cbn [bind]. exists (b'' ++ [c_nl]). split; [apply nls_app; [assumption|repeat constructor]|].
    rewrite <- app_assoc. reflexivity. }
  assert (Disp : osl_statement_dispatch (opt d ++ opt c ++ acc) = Ok (Statement d c acc [])) by now apply dispatch_ok.
  destruct (Z.eqb_spec nb 0) as [Z0|Z0].
  - assert (L0 : opt d ++ opt c ++ acc = []). { destruct (opt d ++ opt c ++ acc) as [|x y] eqn:El; [reflexivity|]. rewrite zlength_cons in Nb. pose proof (zlength_nonneg y). lia. }
    cbn [bind]. assert (D0 : osl_statement_dispatch [[]] = Ok (Statement d c acc [])).
    { rewrite L0 in Disp. apply Ok_inj in Disp. rewrite <- Disp. reflexivity. }
    assert (BR : blank_lines R). { rewrite L0 in HR. now apply rels_nil. }
    destruct (Fin [[]] R) as (b'' & N & Y); try assumption. exists b''. split; [assumption|]. rewrite <- ?app_assoc in Y |- *. exact Y.
  - replace (Z.to_nat nb) with (List.length (opt d ++ opt c ++ acc)) by (rewrite Nb; unfold zlength; lia).
    destruct (read_rels _ _ HR [] (B ++ lnZ (osl_generic_number ext) ++ te ++ [c_nl] ++ rest) false) as (b' & H1 & H2 & H3); [constructor|assumption|].
    cbn [app] in H3. rewrite <- ?app_assoc in H3 |- *. cbn [app] in H3 |- *. rewrite H3. cbn [bind].
    destruct (Fin (opt d ++ opt c ++ acc) b') as (b'' & N & Y); try assumption.
    + apply short_blank; [assumption|assumption|now apply short_lines_tail in SB].
    + exists b''. split; [assumption|]. exact Y.
Qed.
End P.
