(** * PropScop: attributes (C19), integrity (C36) and normalisation (C16) of statements and scops *)
From Verif Require Import Base Spec RelSpec IntModel VectorModel RelationModel LoopLemmas RelationProofs RelationProofs2
  RelTextProofs UtilModel StringsModel RelTextModel ExtModel ScopModel ScopSpec PropStrings PropRelation PropRelation2.

(** ** C19 *)
Section A.
Context {cfg : config}.

Definition good (vis : list (list relation)) (w : attribute) (B : Z -> Prop) (v : Z) : Prop :=
  bounds vis w v /\ (B v \/ reached vis w v).
Lemma good_incl vis vis' w B v : (forall u, In u vis <-> In u vis') -> good vis w B v -> good vis' w B v.
Proof.
  intros I [H1 H2]. split.
  - intros u pre part post Hu. apply H1. now apply I.
  - destruct H2 as [H2|(u & pre & part & post & id & Hu & H)]; [now left|]. right. exists u, pre, part, post, id. split; [now apply I|assumption].
Qed.
Lemma good_base vis w (B B' : Z -> Prop) v : (forall x, B x -> B' x) -> good vis w B v -> good vis w B' v.
Proof. intros H [H1 [H2|H2]]; split; auto. Qed.
Lemma bounds_app vis vis' w v : bounds (vis ++ vis') w v <-> bounds vis w v /\ bounds vis' w v.
Proof.
  unfold bounds. split.
  - intros H. split; intros u pre part post Hu; apply H; apply in_or_app; auto.
  - intros [H1 H2] u pre part post Hu. apply in_app_or in Hu. destruct Hu; eauto.
Qed.
Lemma bounds_le vis w v v' : v <= v' -> bounds vis w v -> bounds vis w v'.
Proof. intros L H u pre part post Hu E. destruct (H u pre part post Hu E) as (id & H1 & H2). exists id. split; [assumption|lia]. Qed.
Lemma reached_app vis vis' w v : reached vis w v \/ reached vis' w v -> reached (vis ++ vis') w v.
Proof.
  intros [(u & pre & part & post & id & Hu & H)|(u & pre & part & post & id & Hu & H)]; exists u, pre, part, post, id;
    (split; [apply in_or_app; auto|assumption]).
Qed.
Lemma good_max vis vis' w (B B' : Z -> Prop) a b : good vis w B a -> good vis' w B' b ->
  good (vis ++ vis') w (fun v => B v \/ B' v) (Z.max a b).
Proof.
  intros [A1 A2] [B1 B2]. split.
  - apply bounds_app. split; eapply bounds_le; try eassumption; lia.
  - destruct (Z.max_spec a b) as [[_ ->]|[_ ->]].
    + destruct B2 as [?|?]; [auto|right; apply reached_app; auto].
    + destruct A2 as [?|?]; [auto|right; apply reached_app; auto].
Qed.
Lemma good_nil w (B : Z -> Prop) v : B v -> good [] w B v.
Proof. intros H. split; [intros ? ? ? ? []|auto]. Qed.

Lemma relation_good u a a' vis w (B : Z -> Prop) : osl_relation_get_attributes u a = Ok a' -> good vis w B (attribute_in w a) ->
  good (vis ++ [u]) w B (attribute_in w a') /\ attribute_in w a <= attribute_in w a'.
Proof.
  intros H [G1 G2]. destruct (C19_relation_attributes cfg u a a' w H) as (H1 & H2 & H3). split; [|assumption]. split.
  - apply bounds_app. split; [eapply bounds_le; eassumption|]. intros u0 pre part post [<-|[]] E. exact (H2 pre part post E).
  - destruct H3 as [H3|(pre & part & post & id & E & Hid & Hv)].
    + rewrite H3. destruct G2 as [?|?]; [auto|right; apply reached_app; auto].
    + right. apply reached_app. right. exists u, pre, part, post, id. split; [now left|]. auto.
Qed.
Lemma attribute_max w a b : attribute_in w (attrs_max a b) = Z.max (attribute_in w a) (attribute_in w b).
Proof. destruct w; reflexivity. Qed.
Lemma undefined_in w : attribute_in w undefined_attrs = -1.
Proof. destruct w; reflexivity. Qed.

(** The common shape of the three loops. *)
Lemma accumulate vis l w (B : Z -> Prop) a loc' : good vis w B (attribute_in w a) -> good (vis ++ l) w (fun v => v = -1) (attribute_in w loc') ->
  (forall x, x = -1 -> B x) -> good (vis ++ l) w B (attribute_in w (attrs_max a loc')) /\ attribute_in w a <= attribute_in w (attrs_max a loc').
Proof.
  intros Ha Hl HB. rewrite attribute_max. split; [|lia].
  pose proof (good_max _ _ _ _ _ _ _ Ha Hl) as G.
  eapply good_base; [|eapply good_incl; [|exact G]].
  - cbn. intros x [?|?]; auto.
  - intros u. rewrite !in_app_iff. tauto.
Qed.

Lemma list_good l : forall vis loc a a' w (B : Z -> Prop), (forall x, x = -1 -> B x) ->
  list_attributes l loc a = Ok a' ->
  good vis w (fun v => v = -1) (attribute_in w loc) -> good vis w B (attribute_in w a) ->
  good (vis ++ l) w B (attribute_in w a') /\ attribute_in w a <= attribute_in w a'.
Proof.
  induction l as [|u l IH]; intros vis loc a a' w B HB H Hl Ha; cbn [list_attributes] in H.
  - apply Ok_inj in H. subst. rewrite app_nil_r. split; [assumption|lia].
  - inv_bind H. destruct (relation_good _ _ _ vis w _ E Hl) as [Hl' _].
    destruct (accumulate vis [u] w B a v Ha Hl' HB) as [Ha' L].
    destruct (IH _ _ _ _ w B HB H Hl' Ha') as [G1 G2]. rewrite <- app_assoc in G1. split; [exact G1|lia].
Qed.
Lemma list_top l vis a a' w (B : Z -> Prop) : (forall x, x = -1 -> B x) -> osl_relation_list_get_attributes l a = Ok a' ->
  good vis w B (attribute_in w a) -> good (vis ++ l) w B (attribute_in w a') /\ attribute_in w a <= attribute_in w a'.
Proof.
  intros HB H Ha. unfold osl_relation_list_get_attributes in H.
  assert (G : good l w (fun v => v = -1 \/ v = attribute_in w a) (attribute_in w a') /\ attribute_in w a <= attribute_in w a').
  { apply (list_good l [] undefined_attrs a a' w (fun v => v = -1 \/ v = attribute_in w a)); auto.
    - apply good_nil. apply undefined_in.
    - apply good_nil. auto. }
  destruct G as [[G1 G2] L]. split; [|assumption]. destruct Ha as [A1 A2]. split.
  - apply bounds_app. split; [eapply bounds_le; eassumption|assumption].
  - destruct G2 as [[G2|G2]|G2]; [auto| |right; apply reached_app; auto].
    rewrite G2. destruct A2; [auto|right; apply reached_app; auto].
Qed.
Lemma statement_good l : forall vis loc a a' w (B : Z -> Prop), (forall x, x = -1 -> B x) ->
  statement_attributes l loc a = Ok a' ->
  good vis w (fun v => v = -1) (attribute_in w loc) -> good vis w B (attribute_in w a) ->
  good (vis ++ relations_of_statements l) w B (attribute_in w a') /\ attribute_in w a <= attribute_in w a'.
Proof.
  induction l as [|s l IH]; intros vis loc a a' w B HB H Hl Ha; cbn [statement_attributes] in H.
  - apply Ok_inj in H. subst. cbn. rewrite app_nil_r. split; [assumption|lia].
  - inv_bind H. inv_bind H. inv_bind H.
    destruct (relation_good _ _ _ vis w _ E Hl) as [Hl1 _].
    destruct (relation_good _ _ _ _ w _ E0 Hl1) as [Hl2 _].
    destruct (list_top _ _ _ _ w (fun v => v = -1) (fun x h => h) E1 Hl2) as [Hl3 _].
    rewrite <- !app_assoc in Hl3. change ([st_domain s] ++ [st_scattering s] ++ st_access s) with (relations_of_statement s) in Hl3.
    destruct (accumulate vis (relations_of_statement s) w B a v1 Ha Hl3 HB) as [Ha' L].
    destruct (IH _ _ _ _ w B HB H Hl3 Ha') as [G1 G2]. cbn [relations_of_statements flat_map].
    rewrite <- app_assoc in G1. split; [exact G1|lia].
Qed.
Lemma statement_top l vis a a' w (B : Z -> Prop) : (forall x, x = -1 -> B x) -> osl_statement_get_attributes l a = Ok a' ->
  good vis w B (attribute_in w a) -> good (vis ++ relations_of_statements l) w B (attribute_in w a') /\ attribute_in w a <= attribute_in w a'.
Proof.
  intros HB H Ha. unfold osl_statement_get_attributes in H.
  assert (G : good (relations_of_statements l) w (fun v => v = -1 \/ v = attribute_in w a) (attribute_in w a') /\ attribute_in w a <= attribute_in w a').
  { apply (statement_good l [] undefined_attrs a a' w (fun v => v = -1 \/ v = attribute_in w a)); auto.
    - apply good_nil. apply undefined_in.
    - apply good_nil. auto. }
  destruct G as [[G1 G2] L]. split; [|assumption]. destruct Ha as [A1 A2]. split.
  - apply bounds_app. split; [eapply bounds_le; eassumption|assumption].
  - destruct G2 as [[G2|G2]|G2]; [auto| |right; apply reached_app; auto].
    rewrite G2. destruct A2; [auto|right; apply reached_app; auto].
Qed.
Lemma scop_good l : forall vis loc a a' w (B : Z -> Prop), (forall x, x = -1 -> B x) ->
  scop_attributes l loc a = Ok a' ->
  good vis w (fun v => v = -1) (attribute_in w loc) -> good vis w B (attribute_in w a) ->
  good (vis ++ relations_of_scops l) w B (attribute_in w a') /\ attribute_in w a <= attribute_in w a'.
Proof.
  induction l as [|s l IH]; intros vis loc a a' w B HB H Hl Ha; cbn [scop_attributes] in H.
  - apply Ok_inj in H. subst. cbn. rewrite app_nil_r. split; [assumption|lia].
  - inv_bind H. inv_bind H.
    destruct (relation_good _ _ _ vis w _ E Hl) as [Hl1 _].
    destruct (statement_top _ _ _ _ w (fun v => v = -1) (fun x h => h) E0 Hl1) as [Hl2 _].
    rewrite <- !app_assoc in Hl2. change ([sc_context s] ++ relations_of_statements (sc_stmts s)) with (relations_of_scop s) in Hl2.
    destruct (accumulate vis (relations_of_scop s) w B a v0 Ha Hl2 HB) as [Ha' L].
    destruct (IH _ _ _ _ w B HB H Hl2 Ha') as [G1 G2]. cbn [relations_of_scops flat_map].
    rewrite <- app_assoc in G1. split; [exact G1|lia].
Qed.
End A.

Theorem C19_list_attributes : forall (cfg : config) (l : list (list relation)) (a a' : attrs) (w : attribute),
  osl_relation_list_get_attributes l a = Ok a' -> maximum_of l w (attribute_in w a) (attribute_in w a').
Proof.
  intros cfg l a a' w H. destruct (list_top l [] a a' w (fun v => v = attribute_in w a \/ v = -1)) as [[G1 G2] L]; auto.
  - apply good_nil. auto.
  - split; [assumption|]. split; [assumption|]. tauto.
Qed.
Print Assumptions C19_list_attributes.
Theorem C19_statement_attributes : forall (cfg : config) (l : list statement) (a a' : attrs) (w : attribute),
  osl_statement_get_attributes l a = Ok a' -> maximum_of (relations_of_statements l) w (attribute_in w a) (attribute_in w a').
Proof.
  intros cfg l a a' w H. destruct (statement_top l [] a a' w (fun v => v = attribute_in w a \/ v = -1)) as [[G1 G2] L]; auto.
  - apply good_nil. auto.
  - split; [assumption|]. split; [assumption|]. tauto.
Qed.
Print Assumptions C19_statement_attributes.
Theorem C19_scop_attributes : forall (cfg : config) (l : list scop) (a a' : attrs) (w : attribute),
  osl_scop_get_attributes l a = Ok a' -> maximum_of (relations_of_scops l) w (attribute_in w a) (attribute_in w a').
Proof.
  intros cfg l a a' w H. unfold osl_scop_get_attributes in H.
  destruct (scop_good l [] undefined_attrs a a' w (fun v => v = attribute_in w a \/ v = -1)) as [[G1 G2] L]; auto.
  - apply good_nil. apply undefined_in.
  - apply good_nil. auto.
  - split; [assumption|]. split; [assumption|]. tauto.
Qed.
Print Assumptions C19_scop_attributes.

(** A scop with two statements, used in the examples below. *)
Definition ex_context := mkrel TYPE_CONTEXT 64 1 3 0 0 0 1 [[1; 1; -1]].
Definition ex_domain := mkrel TYPE_DOMAIN 64 2 4 1 0 0 1 [[1; 1; 0; 0]; [1; -1; 1; -1]].
Definition ex_scattering := mkrel TYPE_SCATTERING 64 1 5 1 1 0 1 [[0; -1; 1; 0; 0]].
Definition ex_scattering3 := mkrel TYPE_SCATTERING 64 3 7 3 1 0 1
  [[0; -1; 0; 0; 0; 0; 0]; [0; 0; -1; 0; 1; 0; 0]; [0; 0; 0; -1; 0; 0; 1]].
Definition ex_read := mkrel TYPE_READ 64 2 6 2 1 0 1 [[0; -1; 0; 0; 0; 2]; [0; 0; -1; 1; 0; 0]].
Definition ex_body := Body (Some (Some [lit "i"])) (Some (Some [lit "S(i) = A[i];"])).
Definition ex_ext := Generic (Some (osl_interface_of KBody)) (Some (DBody ex_body)).
Definition ex_statements := [Statement [ex_domain] [ex_scattering] [[ex_read]] [ex_ext];
                             Statement [ex_domain; ex_domain] [ex_scattering3] [[ex_read]; [ex_read; ex_read]] []].
Definition ex_scop := Scop 1 (Some (lit "C")) [ex_context] [] ex_statements default_registry [].

Example C19_scop_witness : @osl_scop_get_attributes lp64_debug [ex_scop; ex_scop] (mkattrs (-1) 4 0 (-1) 1) =
  Ok (mkattrs 1 4 3 0 2).
Proof. vm_compute. reflexivity. Qed.

(** ** C36 *)
Section I.
Context {cfg : config}.

Lemma lookup_carries l uri d : osl_generic_lookup l uri = Some d -> carries l uri d.
Proof.
  induction l as [|[i o] l IH]; cbn [osl_generic_lookup]; [discriminate|]. unfold has_uri, g_uri. cbn [g_iface g_data].
  destruct i as [[[u|] k]|]; cbn [if_uri].
  - destruct (str_eqb u uri) eqn:E.
    + apply str_eqb_eq in E. subst. intros ->. exists [], k, l. split; [reflexivity|constructor].
    + intros H. destruct (IH H) as (pre & k' & post & -> & F). eexists (_ :: pre), k', post. split; [reflexivity|].
      constructor; [|assumption]. intros k0 d0 X. injection X as -> _ _.
      assert (str_eqb uri uri = true) by now apply str_eqb_eq. congruence.
  - intros H. destruct (IH H) as (pre & k' & post & -> & F). eexists (_ :: pre), k', post. split; [reflexivity|]. constructor; [|assumption]. discriminate.
  - intros H. destruct (IH H) as (pre & k' & post & -> & F). eexists (_ :: pre), k', post. split; [reflexivity|]. constructor; [|assumption]. discriminate.
Qed.
Lemma carries_lookup l uri d : carries l uri d -> osl_generic_lookup l uri = Some d.
Proof.
  intros (pre & k & post & -> & F). induction F as [|g pre H F IH]; cbn [app osl_generic_lookup].
  - unfold has_uri, g_uri. cbn. assert (str_eqb uri uri = true) as -> by now apply str_eqb_eq. reflexivity.
  - destruct (has_uri g uri) eqn:E; [|exact IH]. exfalso. destruct g as [[[[u|] k0]|] o]; unfold has_uri, g_uri in E; cbn in E; try discriminate.
    apply str_eqb_eq in E. subst. exact (H k0 o eq_refl).
Qed.
Lemma body_of_ok l b : body_of l = Ok (Some b) -> carries l (lit "body") (DBody b).
Proof.
  unfold body_of. change (uri_of KBody) with (lit "body"). destruct (osl_generic_lookup l (lit "body")) as [d|] eqn:E; [|discriminate].
  destruct d; try discriminate. intros H. apply Ok_inj in H. injection H as ->. now apply lookup_carries.
Qed.
Lemma body_of_carries l b : carries l (lit "body") (DBody b) -> body_of l = Ok (Some b).
Proof. intros H. unfold body_of. change (uri_of KBody) with (lit "body"). now rewrite (carries_lookup _ _ _ H). Qed.
Lemma strings_size its : osl_strings_size (Some its) = Z.of_nat (List.length (elems its)).
Proof. destruct its; reflexivity. Qed.

Definition fits_int (u : list relation) : Prop :=
  Forall (fun r => Forall (Forall (fun v => - 2 ^ 31 < v <= 2 ^ 31 - 1)) (rows r)) u.

Lemma list_integrity_sound l type eo ei ep : config_ok cfg -> ndebug cfg = false -> Forall (wf_union cfg) l ->
  osl_relation_list_integrity_check l type eo ei ep = Ok true -> Forall (fun u => coherent u type eo ei ep) l.
Proof.
  intros Hc Nd W. induction W as [|u l Hu W IH]; intros H; [constructor|]. cbn [osl_relation_list_integrity_check] in H. inv_bind H.
  destruct v; [|discriminate]. constructor; [|auto]. now apply (C17_integrity_sound cfg).
Qed.
Lemma list_integrity_complete l type eo ei ep : config_ok cfg -> Forall (wf_union cfg) l -> Forall fits_int l ->
  Forall (fun u => coherent u type eo ei ep) l -> osl_relation_list_integrity_check l type eo ei ep = Ok true.
Proof.
  intros Hc W F H. induction H as [|u l Hu H IH]; [reflexivity|]. cbn [osl_relation_list_integrity_check].
  apply Forall_cons_iff in W, F. destruct W as [W1 W], F as [F1 F].
  rewrite (C17_integrity_complete cfg) by assumption. cbn [bind]. auto.
Qed.
Lemma announced_nout u : first_nout u = announced nout u. Proof. destruct u; reflexivity. Qed.
Lemma announced_npar u : first_npar u = announced npar u. Proof. destruct u; reflexivity. Qed.

Lemma statement_integrity_sound np l : config_ok cfg -> ndebug cfg = false -> Forall (wf_union cfg) (relations_of_statements l) ->
  Forall (fun st => (forall r, In r (st_domain st) -> c_int (nout r)) /\
            forall its e, carries (st_ext st) (lit "body") (DBody (Body (Some its) e)) ->
              Z.of_nat (List.length (elems its)) < 2 ^ 63) l ->
  osl_statement_integrity_check l np = Ok true -> Forall (coherent_statement np) l.
Proof.
  intros Hc Nd W S. induction S as [|s l [S1 S2] S IH]; intros H; [constructor|].
  cbn [relations_of_statements flat_map relations_of_statement app] in W. apply Forall_cons_iff in W. destruct W as [W1 W].
  apply Forall_cons_iff in W. destruct W as [W2 W]. apply Forall_app in W. destruct W as [W3 W].
  cbn [osl_statement_integrity_check] in H. inv_bind H. destruct v; [|discriminate]. cbn [negb] in H.
  inv_bind H. destruct v; [|discriminate]. cbn [negb] in H. inv_bind H. destruct v; [|discriminate]. cbn [negb] in H. inv_bind H.
  match type of H with (if ?b then _ else _) = _ => destruct b eqn:Eb; [discriminate|] end.
  constructor; [|apply IH; assumption].
  rewrite announced_nout in *. unfold coherent_statement. split; [|split; [|split]].
  - now apply (C17_integrity_sound cfg).
  - now apply (C17_integrity_sound cfg).
  - now apply list_integrity_sound.
  - intros its e Hd Hb. pose proof (body_of_carries _ _ Hb) as X. rewrite X in E2. apply Ok_inj in E2. subst v.
    rewrite strings_size in Eb. apply S2 in Hb. destruct (st_domain s) as [|r u]; [congruence|]. cbn [announced] in *.
    assert (Hr := S1 r (or_introl eq_refl)). unfold c_int in Hr.
    assert (Hco := C17_integrity_sound cfg _ _ _ _ _ Hc Nd W1 E). destruct (Hco r u eq_refl) as (_ & Hn & _).
    change UNDEFINED with (-1) in *.
    assert (Z.eqb (nout r) (-1) = false) as X1 by (now apply Z.eqb_neq). rewrite X1 in Eb. cbn [negb andb] in Eb.
    apply negb_false_iff, Z.eqb_eq in Eb. destruct (Z_lt_le_dec (nout r) 0) as [L|L].
    + exfalso. assert (nout r mod 2 ^ 64 = nout r + 2 ^ 64).
      { symmetry. apply Z.mod_unique with (q := -1); lia. } lia.
    + rewrite Z.mod_small in Eb by lia. lia.
Qed.
Lemma statement_integrity_complete np l : config_ok cfg -> Forall (wf_union cfg) (relations_of_statements l) ->
  Forall fits_int (relations_of_statements l) ->
  Forall (fun st => forall d, carries (st_ext st) (lit "body") d -> exists b, d = DBody b) l ->
  Forall (fun st => forall its e, carries (st_ext st) (lit "body") (DBody (Body (Some its) e)) ->
              Z.of_nat (List.length (elems its)) < 2 ^ 63) l ->
  Forall (coherent_statement np) l -> osl_statement_integrity_check l np = Ok true.
Proof.
  intros Hc W F B S H. induction H as [|s l (H1 & H2 & H3 & H4) H IH]; [reflexivity|].
  cbn [relations_of_statements flat_map relations_of_statement app] in W, F. apply Forall_cons_iff in W, F. destruct W as [W1 W], F as [F1 F].
  apply Forall_cons_iff in W, F. destruct W as [W2 W], F as [F2 F]. apply Forall_app in W, F. destruct W as [W3 W], F as [F3 F].
  apply Forall_cons_iff in B, S. destruct B as [B1 B], S as [S1 S].
  cbn [osl_statement_integrity_check]. rewrite (C17_integrity_complete cfg) by assumption. cbn [bind negb].
  rewrite announced_nout. rewrite (C17_integrity_complete cfg) by assumption. cbn [bind negb].
  rewrite list_integrity_complete by assumption. cbn [bind negb].
  unfold body_of at 1. change (uri_of KBody) with (lit "body").
  destruct (osl_generic_lookup (st_ext s) (lit "body")) as [d|] eqn:El.
  - apply lookup_carries in El. destruct (B1 _ El) as (b & ->). cbn [bind]. destruct b as [[its|] e].
    + rewrite strings_size. destruct (st_domain s) as [|r u] eqn:Ed.
      * cbn [announced]. change (-1 =? UNDEFINED) with true. cbn [negb andb]. auto.
      * rewrite <- (H4 its e) by (assumption || congruence). pose proof (S1 its e El).
        rewrite Z.mod_small by lia. rewrite Z.eqb_refl. cbn [negb]. rewrite andb_false_r. auto.
    + auto.
  - cbn [bind]. auto.
Qed.
End I.

(** If the check accepts, every relation of every scop of the list is coherent (C17): the context is a context, the
    domains, scatterings and accesses of each statement have the right types, the number of parameters of the context and
    the number of iterators of the domain, and the body names that many iterators. *)
Theorem C36_integrity_sound : forall (cfg : config) (l : list scop),
  config_ok cfg -> ndebug cfg = false -> Forall (wf_union cfg) (relations_of_scops l) -> Forall c_sizes l ->
  osl_scop_integrity_check l = Ok true -> Forall coherent_scop l.
Proof.
  intros cfg l Hc Nd W S. induction S as [|s l S1 S IH]; intros H; [constructor|].
  cbn [relations_of_scops flat_map relations_of_scop app] in W. apply Forall_cons_iff in W. destruct W as [W1 W].
  apply Forall_app in W. destruct W as [W2 W].
  cbn [osl_scop_integrity_check] in H. inv_bind H. destruct v; [|discriminate]. cbn [negb] in H.
  inv_bind H. destruct v; [|discriminate]. cbn [negb] in H. constructor; [|auto]. rewrite announced_npar in E0. split.
  - now apply (C17_integrity_sound cfg).
  - now apply statement_integrity_sound.
Qed.
Print Assumptions C36_integrity_sound.

(** Conversely, coherent scops are accepted. *)
Theorem C36_integrity_complete : forall (cfg : config) (l : list scop),
  config_ok cfg -> Forall (wf_union cfg) (relations_of_scops l) ->
  Forall (fun u => Forall (fun r => Forall (Forall (fun v => - 2 ^ 31 < v <= 2 ^ 31 - 1)) (rows r)) u) (relations_of_scops l) ->
  Forall c_sizes l -> Forall bodies_are_bodies l ->
  Forall coherent_scop l -> osl_scop_integrity_check l = Ok true.
Proof.
  intros cfg l Hc W F S B H. induction H as [|s l [H1 H2] H IH]; [reflexivity|].
  cbn [relations_of_scops flat_map relations_of_scop app] in W, F. apply Forall_cons_iff in W, F. destruct W as [W1 W], F as [F1 F].
  apply Forall_app in W, F. destruct W as [W2 W], F as [F2 F]. apply Forall_cons_iff in S, B. destruct S as [S1 S], B as [B1 B].
  cbn [osl_scop_integrity_check]. rewrite (C17_integrity_complete cfg) by assumption. cbn [bind negb].
  rewrite announced_npar. rewrite statement_integrity_complete; try assumption.
  - cbn [bind negb]. auto.
  - unfold c_sizes in S1. eapply Forall_impl; [|exact S1]. cbn. intros a [_ ?]. assumption.
Qed.
Print Assumptions C36_integrity_complete.

Example C36_witness : @osl_scop_integrity_check lp64_debug [ex_scop] = Ok true /\
  @osl_scop_integrity_check lp64_debug [Scop 1 None [ex_context] [] [Statement [ex_domain] [ex_domain] [] []] [] []] = Ok false.
Proof. split; vm_compute; reflexivity. Qed.
Example C36_witness_hypotheses : Forall (wf_union lp64_debug) (relations_of_scops [ex_scop]) /\ c_sizes ex_scop /\ bodies_are_bodies ex_scop.
Proof.
  split; [|split].
  - cbn. repeat (constructor; [repeat (constructor; [unfold wf_rel; cbn [rtype rprec nrows ncols nout nin nloc npar rm ex_context ex_domain ex_scattering ex_scattering3 ex_read]; wf_lit|]); constructor|]). constructor.
  - unfold c_sizes. change (sc_stmts ex_scop) with ex_statements. unfold ex_statements.
    apply Forall_cons; [|apply Forall_cons; [|apply Forall_nil]]; cbn [st_domain st_ext].
    all: split; [intros r Hr; assert (r = ex_domain) as -> by (cbn in Hr; intuition); unfold c_int; cbn; lia|].
    + intros its e H. apply carries_lookup in H. cbn in H. injection H as <- _. cbn. lia.
    + intros its e H. apply carries_lookup in H. discriminate.
  - unfold bodies_are_bodies. change (sc_stmts ex_scop) with ex_statements. unfold ex_statements.
    apply Forall_cons; [|apply Forall_cons; [|apply Forall_nil]]; cbn [st_domain st_ext].
    + intros d H. apply carries_lookup in H. cbn in H. injection H as <-. eauto.
    + intros d H. apply carries_lookup in H. discriminate.
Qed.

(** ** C16: normalisation of the scattering dimensions *)

(** A scattering that osl_relation_extend_output can extend: one precision, coherent dimensions, one number of output
    dimensions for all the parts. *)
Definition extensible (cfg : config) (u : list relation) : Prop :=
  wf_union cfg u /\ Forall dims_known u /\
  forall r r', In r u -> In r' u -> rprec r = rprec r' /\ nout r = nout r'.

(** [u'] is [u] with output dimensions fixed to zero up to [dim]. *)
Definition extended (cfg : config) (dim : Z) (u u' : list relation) : Prop :=
  wf_union cfg u' /\
  Forall2 (fun r r' =>
      nout r' = dim /\ nin r' = nin r /\ nloc r' = nloc r /\ npar r' = npar r /\ rtype r' = rtype r /\ rprec r' = rprec r /\
      forall out z inp par, zlength out = nout r ->
        (relates r' (out ++ z) inp par <->
           relates r out inp par /\ zlength z = dim - nout r /\ Forall (fun v => v = 0) z)) u u'.

Lemma max_nout_spec l : forall m, 0 <= m -> m <= fold_left max_nout l m /\
  (forall s r u, In s l -> st_scattering s = r :: u -> nout r <= fold_left max_nout l m) /\
  (fold_left max_nout l m = m \/ exists s r u, In s l /\ st_scattering s = r :: u /\ nout r = fold_left max_nout l m).
Proof.
  induction l as [|s l IH]; intros m Hm; cbn [fold_left].
  - split; [lia|]. split; [|now left]. intros s r u [].
  - assert (L : m <= max_nout m s) by (unfold max_nout; destruct (st_scattering s); lia).
    destruct (IH (max_nout m s)) as (A & B & C); [lia|]. split; [lia|]. split.
    + intros s0 r u [<-|Hin] E; [|eauto]. assert (nout r <= max_nout m s) by (unfold max_nout; rewrite E; lia). lia.
    + destruct C as [C|(s0 & r & u & Hin & E & X)]; [|right; exists s0, r, u; cbn; auto].
      rewrite C. unfold max_nout. destruct (st_scattering s) as [|r u] eqn:E; [now left|].
      destruct (Z.max_spec m (nout r)) as [[? ->]|[? ->]]; [|now left]. right. exists s, r, u. cbn. auto.
Qed.

(** All the scatterings of the scop get the same number of output dimensions, the largest of them; nothing else changes,
    and the schedules mean the same. *)
Theorem C16_normalize_scattering : forall (cfg : config) (s : scop) (rest : list scop),
  config_ok cfg -> Forall (fun st => extensible cfg (st_scattering st)) (sc_stmts s) ->
  exists dim stmts,
    osl_scop_normalize_scattering (s :: rest) =
      Ok (Scop (sc_version s) (sc_language s) (sc_context s) (sc_params s) stmts (sc_registry s) (sc_ext s) :: rest) /\
    Forall2 (fun st st' => st_domain st' = st_domain st /\ st_access st' = st_access st /\ st_ext st' = st_ext st /\
                extended cfg dim (st_scattering st) (st_scattering st')) (sc_stmts s) stmts /\
    (forall st r, In st (sc_stmts s) -> In r (st_scattering st) -> nout r <= dim) /\
    (dim = 0 \/ exists st r, In st (sc_stmts s) /\ In r (st_scattering st) /\ nout r = dim).
Proof.
  intros cfg s rest Hc H. set (dim := fold_left max_nout (sc_stmts s) 0).
  destruct (max_nout_spec (sc_stmts s) 0 ltac:(lia)) as (M0 & M1 & M2). fold dim in M0, M1, M2.
  assert (B : forall st r, In st (sc_stmts s) -> In r (st_scattering st) -> nout r <= dim).
  { intros st r Hst Hr. rewrite Forall_forall in H. destruct (H _ Hst) as (_ & _ & Hs). destruct (st_scattering st) as [|r0 u] eqn:E; [destruct Hr|].
    destruct (Hs r r0 Hr (or_introl eq_refl)) as [_ ->]. eapply M1; eassumption. }
  assert (G : forall l, incl l (sc_stmts s) -> exists stmts, mapM (normalize_statement dim) l = Ok stmts /\
    Forall2 (fun st st' => st_domain st' = st_domain st /\ st_access st' = st_access st /\ st_ext st' = st_ext st /\
                extended cfg dim (st_scattering st) (st_scattering st')) l stmts).
  { induction l as [|st l IH]; intros Hl; [exists []; split; [reflexivity|constructor]|].
    destruct IH as (stmts & E & F); [intros x Hx; apply Hl; now right|].
    assert (Hin : In st (sc_stmts s)) by (apply Hl; now left).
    rewrite Forall_forall in H. destruct (H _ Hin) as (W & D & Hs). specialize (B st).
    destruct st as [d u a e]. cbn [st_domain st_scattering st_access st_ext] in *. destruct u as [|r u].
    - exists (Statement d [] a e :: stmts). split; [cbn [mapM]; unfold normalize_statement at 1; cbn [st_scattering bind]; now rewrite E|].
      constructor; [|assumption]. repeat (split; [reflexivity|]). split; constructor.
    - destruct (C16_extend_output cfg r u dim) as (u' & E' & W' & F'); try assumption.
      + apply Forall_forall. intros x Hx. apply Hs; [now right|now left].
      + apply Forall_forall. intros x Hx. now apply B.
      + exists (Statement d u' a e :: stmts). split.
        * cbn [mapM]. unfold normalize_statement at 1. cbn [st_scattering st_domain st_access st_ext]. rewrite E'. cbn [bind]. now rewrite E.
        * constructor; [|assumption]. repeat (split; [reflexivity|]). split; assumption. }
  destruct (G (sc_stmts s) (incl_refl _)) as (stmts & E & F). exists dim, stmts. split.
  - unfold osl_scop_normalize_scattering. fold dim. rewrite E. reflexivity.
  - split; [assumption|]. split; [assumption|]. destruct M2 as [M2|(st & r & u & Hin & Es & Hr)]; [now left|].
    right. exists st, r. split; [assumption|]. split; [|assumption]. rewrite Es. now left.
Qed.
Print Assumptions C16_normalize_scattering.

Example C16_normalize_witness : (forall st, In st ex_statements -> extensible lp64_debug (st_scattering st)) /\
  match @osl_scop_normalize_scattering lp64_debug [ex_scop] with
  | Ok [s] => map (fun st => map nout (st_scattering st)) (sc_stmts s) = [[3]; [3]]
  | _ => False
  end.
Proof.
  split; [|vm_compute; reflexivity].
  intros st [<-|[<-|[]]]; (split; [|split]); cbn [st_scattering];
    try (constructor; [|constructor]; unfold wf_rel; cbn [rtype rprec nrows ncols nout nin nloc npar rm ex_scattering ex_scattering3]; wf_lit);
    try (constructor; [|constructor]; unfold dims_known; cbn; lia);
    intros r r' [<-|[]] [<-|[]]; auto.
Qed.
