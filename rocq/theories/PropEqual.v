(** * PropEqual: what it means that the library finds two scops equal (C61) *)
From Verif Require Import Base LoopLemmas IntModel VectorModel IntProofs RelationModel UtilModel StringsModel RelTextModel Spec RelSpec
  RelationProofs RelationProofs2 PropRelation PropStrings ExtModel ExtSpec ExtProofs PropExt PropExt2 PropExt3 RelTextProofs ScopModel ScopSpec PropScop PropScop2 SaveProofs5 CloneModel CloneSpec PropClone AlikeSpec.

Lemma answers_ok b (P : Prop) : (b = true <-> P) -> answers (Ok b) P.
Proof. intros H c E. apply Ok_inj in E. now subst c. Qed.
Lemma answers_ub (P : Prop) : answers UB P.
Proof. intros b E. discriminate. Qed.
Lemma answers_seq r (P Q R : Prop) k : answers r P -> (P -> answers k Q) -> (R <-> P /\ Q) -> answers (b <- r ;; if negb b then Ok false else k) R.
Proof.
  intros H1 H2 HR c E. destruct (bind_ok _ _ _ E) as (b & E1 & E2). pose proof (H1 b E1) as Hb. rewrite HR. destruct b; cbn [negb] in E2.
  - assert (p : P) by now apply Hb. rewrite (H2 p c E2). tauto.
  - apply Ok_inj in E2. subst c. split; [discriminate|]. intros [p _]. apply Hb in p. discriminate.
Qed.
Lemma answers_seq' r (P Q R : Prop) k : answers r P -> (P -> answers k Q) -> (R <-> P /\ Q) -> answers (b <- r ;; if b then k else Ok false) R.
Proof.
  intros H1 H2 HR c E. destruct (bind_ok _ _ _ E) as (b & E1 & E2). pose proof (H1 b E1) as Hb. rewrite HR. destruct b; cbn [negb] in E2.
  - assert (p : P) by now apply Hb. rewrite (H2 p c E2). tauto.
  - apply Ok_inj in E2. subst c. split; [discriminate|]. intros [p _]. apply Hb in p. discriminate.
Qed.
Lemma answers_if (c : bool) (P Q R : Prop) k : (c = true <-> P) -> (P -> answers k Q) -> (R <-> P /\ Q) -> answers (if negb c then Ok false else k) R.
Proof. intros H1 H2 HR. apply (answers_seq (Ok c) P Q R k); auto using answers_ok. Qed.
Lemma answers_iff r (P Q : Prop) : (P <-> Q) -> answers r P -> answers r Q.
Proof. intros H A b E. rewrite <- H. now apply A. Qed.
Lemma answers_ex {r b} (P : Prop) : r = Ok b -> (b = true <-> P) -> answers r P.
Proof. intros -> . apply answers_ok. Qed.

Lemma zlength_eqb {A B} (a : list A) (b : list B) : (zlength a =? zlength b) = true <-> List.length a = List.length b.
Proof. unfold zlength. rewrite Z.eqb_eq. lia. Qed.
Lemma strcmp_answers a b : answers (strcmp_eq a b) (a = b).
Proof. destruct a as [a|], b as [b|]; try apply answers_ub. apply answers_ok. rewrite str_eqb_eq. split; congruence. Qed.
Lemma strcmp_same_answers a b : answers (strcmp_or_same a b) (a = b).
Proof. destruct a, b; try apply strcmp_answers. now apply answers_ok. Qed.
Lemma strings_same a b : no_or_array a -> no_or_array b -> (osl_strings_equal a b = true <-> a = b).
Proof.
  intros Ha Hb. rewrite strings_equal_iff. destruct a as [[a|]|], b as [[b|]|]; cbn in *; try easy; split; congruence || easy.
Qed.
Lemma body_same a b : no_or_array (bo_iterators a) /\ no_or_array (bo_expression a) -> no_or_array (bo_iterators b) /\ no_or_array (bo_expression b) ->
  (osl_body_equal (Some a) (Some b) = true <-> a = b).
Proof.
  intros [A1 A2] [B1 B2]. cbn [osl_body_equal]. rewrite andb_true_iff, !strings_same by assumption. destruct a, b; cbn. split; [intros [-> ->]; reflexivity|intros E; now inversion E].
Qed.
Lemma kind_eqb_eq k l : kind_eqb k l = true <-> k = l.
Proof. destruct k, l; cbn; split; intros H; congruence || reflexivity || discriminate H. Qed.
Lemma interface_answers i j : answers (osl_interface_equal i j) (i = j).
Proof.
  destruct i as [[u k]|], j as [[v l]|]; cbn [osl_interface_equal if_uri if_kind].
  - intros b E. destruct (bind_ok _ _ _ E) as (c & E1 & E2). apply strcmp_answers in E1. apply Ok_inj in E2. subst b. rewrite andb_true_iff, E1, kind_eqb_eq.
    split; [intros [-> ->]; reflexivity|intros H; now inversion H].
  - now apply answers_ok.
  - now apply answers_ok.
  - now apply answers_ok.
Qed.
Lemma loop_answers a b : answers (osl_loop_equal_one a b) (alike_loop a b).
Proof.
  unfold osl_loop_equal_one, alike_loop.
  apply (answers_if _ (List.length (lo_stmts a) = List.length (lo_stmts b))
    (lo_iter a = lo_iter b /\ incl (lo_stmts a) (lo_stmts b) /\ lo_private a = lo_private b /\ lo_directive a = lo_directive b /\ lo_user a = lo_user b));
    [apply zlength_eqb| |tauto]. intros _.
  eapply answers_seq; [apply strcmp_answers| |reflexivity]. intros _.
  eapply answers_if; [apply all_found_iff, Z.eqb_eq| |reflexivity]. intros _.
  eapply answers_seq; [apply strcmp_same_answers| |reflexivity]. intros _.
  eapply answers_if; [apply Z.eqb_eq| |reflexivity]. intros _. apply strcmp_same_answers.
Qed.
Lemma loop_found_answers a l : answers (loop_found a l) (exists y, In y l /\ alike_loop a y).
Proof.
  induction l as [|x l IH]; cbn [loop_found]; [apply answers_ok; split; [discriminate|now intros (y & [] & _)]|].
  intros b E. destruct (bind_ok _ _ _ E) as (c & E1 & E2). apply loop_answers in E1. destruct c.
  - apply Ok_inj in E2. subst b. split; [|reflexivity]. intros _. exists x. split; [now left|]. now apply E1.
  - rewrite (IH b E2). split; intros (y & Hy & Ha).
    + exists y. split; [now right|exact Ha].
    + destruct Hy as [-> |Hy]; [apply E1 in Ha; discriminate|]. now exists y.
Qed.
Lemma loops_found_answers a b : answers (loops_found a b) (Forall (fun x => exists y, In y b /\ alike_loop x y) a).
Proof.
  induction a as [|x a IH]; cbn [loops_found]; [apply answers_ok; split; constructor|].
  apply (answers_seq' _ _ _ _ _ (loop_found_answers x b) (fun _ => IH)). split; [intros H; inversion H; now subst|intros []; now constructor].
Qed.
Lemma loops_answers a b : answers (osl_loop_equal a b) (List.length a = List.length b /\ Forall (fun x => exists y, In y b /\ alike_loop x y) a).
Proof.
  unfold osl_loop_equal. destruct a as [|x a], b as [|y b]; try (apply answers_ok; cbn; split; [discriminate|now intros [H _]]); [apply answers_ok; repeat constructor|].
  eapply answers_if; [|intros _; apply loops_found_answers|reflexivity]. unfold osl_loop_count. apply zlength_eqb.
Qed.
Lemma region_answers a : forall b, answers (osl_region_equal a b) False.
Proof.
  induction a as [|x a IH]; intros [|y b]; cbn [osl_region_equal]; try apply answers_ub; try (now apply answers_ok).
  intros c E. destruct (bind_ok _ _ _ E) as ([] & E1 & E2); [now apply (IH b)|]. apply Ok_inj in E2. now subst.
Qed.

Section EQUAL.
Context {cfg : config}.
Hypothesis Hc : config_ok cfg.
Lemma union_answers u v : Forall (wf_rel cfg) u -> Forall (wf_rel cfg) v -> answers (osl_relation_equal u v) (u = v).
Proof. intros H1 H2. destruct (equal_ok u v H1 H2) as (b & E & Hb). now apply (answers_ex _ E). Qed.
Lemma list_answers l : forall m, Forall (Forall (wf_rel cfg)) l -> Forall (Forall (wf_rel cfg)) m -> answers (osl_relation_list_equal l m) (l = m).
Proof.
  induction l as [|u l IH]; intros [|v m] H1 H2; cbn [osl_relation_list_equal]; try (now apply answers_ok).
  inversion H1; inversion H2; subst. eapply answers_seq'; [now apply union_answers|intros _; now apply IH|]. split; [intros E; now inversion E|intros [-> ->]; reflexivity].
Qed.
Lemma pair_eqb_eq a b : pair_eqb a b = true <-> a = b.
Proof. destruct a, b. unfold pair_eqb. cbn [fst snd]. rewrite andb_true_iff, !Z.eqb_eq. split; [intros [-> ->]; reflexivity|intros E; now inversion E]. Qed.
Lemma coordinates_answers a b : answers (osl_coordinates_equal (Some a) (Some b)) (a = b).
Proof.
  destruct a as [[x|] a1 a2 a3 a4 a5], b as [[y|] b1 b2 b3 b4 b5]; try (intros c E; discriminate E).
  destruct (C33_coordinates_equal (Coordinates (Some x) a1 a2 a3 a4 a5) (Coordinates (Some y) b1 b2 b3 b4 b5) x y eq_refl eq_refl) as (r & E & Hr). now apply (answers_ex _ E).
Qed.
Lemma comment_answers a b : answers (osl_comment_equal (Some a) (Some b)) True.
Proof. destruct a, b; try (intros c E; discriminate E). cbn. now apply answers_ok. Qed.
Lemma extbody_answers a b :
  match eb_body a with Some b => no_or_array (bo_iterators b) /\ no_or_array (bo_expression b) | None => True end ->
  match eb_body b with Some b => no_or_array (bo_iterators b) /\ no_or_array (bo_expression b) | None => True end ->
  answers (Ok (osl_extbody_equal (Some a) (Some b)))
    (List.length (eb_access a) = List.length (eb_access b) /\ incl (eb_access a) (eb_access b) /\ eb_body a = eb_body b).
Proof.
  intros Ha Hb. apply answers_ok. cbn [osl_extbody_equal]. rewrite <- zlength_eqb, <- (all_found_iff pair_eqb pair_eqb_eq).
  assert (B : osl_body_equal (eb_body a) (eb_body b) = true <-> eb_body a = eb_body b).
  { destruct (eb_body a) as [x|], (eb_body b) as [y|]; cbn [osl_body_equal]; try (split; congruence || reflexivity).
    pose proof (body_same x y Ha Hb) as B. cbn [osl_body_equal] in B. rewrite B. split; congruence. }
  destruct (_ =? _); cbn [negb]; [|split; [discriminate|intros [H _]; discriminate]].
  destruct (all_found _ _ _); cbn [negb]; [|split; [discriminate|intros (_ & H & _); discriminate]]. rewrite B. tauto.
Qed.
Lemma leaf_answers k d1 d2 : (forall l, d1 <> DSymbols l) -> clonable cfg k d1 -> clonable cfg k d2 -> answers (data_equal k d1 (Some d2)) (alike_data d1 d2).
Proof.
  intros Hl H1 H2. destruct k, d1; try contradiction; destruct d2; try contradiction; cbn [data_equal alike_data clonable] in *; try (now destruct (Hl l)).
  all: try (now apply answers_ok).
  - apply answers_ok. rewrite strings_same by assumption. split; congruence.
  - apply answers_ok. rewrite body_same by assumption. split; congruence.
  - eapply answers_iff; [|apply union_answers; tauto]. split; congruence.
  - apply comment_answers.
  - apply answers_ok. rewrite C33_scatinfos_equal. split; congruence.
  - apply answers_ok. cbn [osl_scatnames_equal]. rewrite strings_same by assumption. split; congruence.
  - apply answers_ok, C32_equal_any.
  - eapply answers_iff; [|apply coordinates_answers]. split; congruence.
  - eapply answers_iff; [|apply strcmp_answers]. split; congruence.
  - destruct H1 as [N1 H1], H2 as [N2 H2]. destruct (C33_dependence_equal cfg l l0 Hc H1 H2 N1 N2) as (r & E & Hr).
    apply (answers_ex _ E). rewrite Hr. split; congruence.
  - now apply extbody_answers.
  - apply loops_answers.
  - apply answers_ok. rewrite C33_pluto_unroll_equal. split; congruence.
  - apply region_answers.
  - destruct (C33_annotation_equal a a0) as (r & E & Hr); [now apply Forall_app|now apply Forall_app|]. apply (answers_ex _ E). rewrite Hr. split; congruence.
Qed.

(** ** Lists of extensions *)
Definition found (x : generic) (l2 : list generic) : Prop := exists y, In y l2 /\ alike_generic x y.
Lemma generics_found_answers l1 l2 : Forall (fun x => answers (generic_equal_one x l2) (found x l2)) l1 -> answers (generics_found generic_equal_one l2 l1) (Forall (fun x => found x l2) l1).
Proof.
  induction 1 as [|x l1 H _ IH]; cbn [generics_found]; [apply answers_ok; split; constructor|].
  apply (answers_seq' _ _ _ _ _ H (fun _ => IH)). split; [intros K; inversion K; now subst|intros []; now constructor].
Qed.
Lemma generics_answers l1 l2 : Forall (fun x => answers (generic_equal_one x l2) (found x l2)) l1 -> answers (generics_equal_with generic_equal_one l1 l2) (alike_generics l1 l2).
Proof. intros H. unfold generics_equal_with. eapply answers_if; [apply zlength_eqb|intros _; now apply generics_found_answers|reflexivity]. Qed.
Lemma fold_Forall {A} (P : A -> Prop) l : fold_right (fun x Q => P x /\ Q) True l <-> Forall P l.
Proof. induction l as [|x l IH]; cbn; [split; constructor|]. rewrite IH. split; [intros []; now constructor|intros H; now inversion H]. Qed.
Lemma alike_fold l1 l2 : fold_right (fun x P => (exists y, In y l2 /\ alike_generic x y) /\ P) True l1 <-> Forall (fun x => exists y, In y l2 /\ alike_generic x y) l1.
Proof. apply (fold_Forall (fun x => exists y, In y l2 /\ alike_generic x y)). Qed.
Lemma clonable_fold l : fold_right (fun x P => clonable_generic cfg x /\ P) True l <-> Forall (clonable_generic cfg) l.
Proof. apply fold_Forall. Qed.
(** Of the extensions with distinct URIs at most one has the interface looked for. *)
Lemma generic_found_answers eq i P l2 : NoDup (map g_uri l2) -> Forall (clonable_generic cfg) l2 ->
  (forall y, In y l2 -> g_iface y = Some i -> answers (eq (g_data y)) (P (g_data y))) ->
  answers (generic_found eq (Some i) l2) (exists y, In y l2 /\ Some i = g_iface y /\ P (g_data y)).
Proof.
  induction l2 as [|y l2 IH]; intros Hn Hl He; cbn [generic_found]; [apply answers_ok; split; [discriminate|now intros (y & [] & _)]|].
  cbn [map] in Hn. inversion Hn as [|? ? Hni Hn']; inversion Hl as [|? ? Hy Hl']; subst.
  assert (IH' := IH Hn' Hl' (fun z Hz => He z (or_intror Hz))). clear IH.
  intros b E. destruct (bind_ok _ _ _ E) as (e & E1 & E2). apply interface_answers in E1. destruct e.
  - assert (Ei : Some i = g_iface y) by now apply E1. apply (He y (or_introl eq_refl) (eq_sym Ei)) in E2. rewrite E2. split.
    + intros HP. exists y. split; [now left|now split].
    + intros (z & [-> |Hz] & Ez & HP); [exact HP|]. exfalso. apply Hni. replace (g_uri y) with (g_uri z); [now apply in_map|].
      unfold g_uri. now rewrite <- Ei, <- Ez.
  - rewrite (IH' b E2). split; intros (z & Hz & HP).
    + exists z. split; [now right|exact HP].
    + destruct Hz as [-> |Hz]; [destruct HP as [HP _]; apply E1 in HP; discriminate|]. now exists z.
Qed.
Lemma equal_all :
  (forall d1 k d2, clonable cfg k d1 -> clonable cfg k d2 -> answers (data_equal k d1 (Some d2)) (alike_data d1 d2)) /\
  (forall x y, clonable_symbol cfg x -> clonable_symbol cfg y -> answers (symbol_equal x y) (alike_symbol x y)) /\
  (forall g l2, clonable_generic cfg g -> clonable_generics cfg l2 -> answers (generic_equal_one g l2) (found g l2)).
Proof.
  set (P := fun d1 => forall k d2, clonable cfg k d1 -> clonable cfg k d2 -> answers (data_equal k d1 (Some d2)) (alike_data d1 d2)).
  set (Q := fun x => forall y, clonable_symbol cfg x -> clonable_symbol cfg y -> answers (symbol_equal x y) (alike_symbol x y)).
  set (R := fun g => forall l2, clonable_generic cfg g -> clonable_generics cfg l2 -> answers (generic_equal_one g l2) (found g l2)).
  assert (Hleaf : forall d, (forall l, d <> DSymbols l) -> P d) by (intros d Hd k d2; now apply leaf_answers).
  assert (Hsym : forall l, Forall Q l -> P (DSymbols l)).
  { intros l Hq k d2 H1 H2. destruct k; try contradiction. destruct d2 as [| | | | | | | | | | | |l2| | | | |]; try contradiction.
    destruct H1 as [N1 H1], H2 as [N2 H2]. destruct l as [|x l]; [easy|]. destruct l2 as [|y l2]; [easy|]. inversion Hq; subst. cbn [fold_right] in H1, H2. cbn [data_equal alike_data]. apply H3; tauto. }
  assert (Hsymbol : forall t g n a b c e, Forall R a -> Forall R b -> Forall R c -> Forall R e -> Q (Symbol t g n a b c e)).
  { intros t g n a b c e Ha Hb Hcc He [t' g' n' a' b' c' e'] H1 H2. cbn [clonable_symbol] in H1, H2. rewrite !clonable_fold in H1, H2.
    assert (G : forall l l', Forall R l -> (Forall (clonable_generic cfg) l /\ NoDup (map g_uri l)) -> (Forall (clonable_generic cfg) l' /\ NoDup (map g_uri l')) ->
      answers (generics_equal_with generic_equal_one l l') (alike_generics l l')).
    { intros l l' HR [Hl _] Hl'. apply generics_answers. clear - HR Hl Hl'. induction HR; inversion Hl; subst; constructor; auto. }
    eapply answers_iff with (P := t = t' /\ g = g' /\ n = n' /\ alike_generics a a' /\ alike_generics b b' /\ alike_generics c c' /\ alike_generics e e').
    { unfold alike_generics. rewrite <- !alike_fold. reflexivity. }
    cbn [symbol_equal]. destruct H1 as (A1 & A2 & A3 & A4), H2 as (B1 & B2 & B3 & B4).
    eapply answers_if with (P := t = t' /\ g = g' /\ n = n'); [rewrite !andb_true_iff, !Z.eqb_eq; tauto| |].
    2: { split; [intros (E1 & E2 & E3 & T); split; [tauto|exact T]|intros [(E1 & E2 & E3) T]; auto]. }
    intros _. eapply answers_seq; [apply G; eassumption| |reflexivity]. intros _.
    eapply answers_seq; [apply G; eassumption| |reflexivity]. intros _.
    eapply answers_seq; [apply G; eassumption| |reflexivity]. intros _. now apply G. }
  assert (Hgen : forall i d, (forall d', d = Some d' -> P d') -> R (Generic i d)).
  { intros i d Hd l2 H1 [H2 Hn]. destruct i as [[[u|] k]|]; try (now destruct d). unfold found. cbn [generic_equal_one alike_generic].
    apply generic_found_answers with (P := fun o => match d, o with None, None => True | Some d, Some d' => alike_data d d' | _, _ => exists v, Some (Iface (Some u) k) = Some (Iface v KTextual) end); [exact Hn|exact H2|].
    intros y Hy Ey. cbn [if_kind].
    assert (T : forall r, r = UB \/ r = Ok (kind_eqb k KTextual) -> answers r (exists v, Some (Iface (Some u) k) = Some (Iface v KTextual))).
    { intros r [-> | ->]; [apply answers_ub|]. apply answers_ok. rewrite kind_eqb_eq. split; [intros ->; now exists (Some u)|intros [v E]; congruence]. }
    assert (Cy : clonable_generic cfg y) by (rewrite Forall_forall in H2; now apply H2).
    destruct y as [j o]. cbn [g_iface g_data] in *. subst j. destruct d as [d|], o as [o|].
    - now apply (Hd d eq_refl).
    - apply (T (data_equal k d None)). assert (data_equal k d None = equal_null k) as -> by (now destruct d). destruct k; (now left) || (now right).
    - apply T. destruct k; (now left) || (now right).
    - destruct k; cbn [null_equal]; try apply answers_ub; now apply answers_ok. }
  assert (Hnone : forall i, R (Generic i None)) by (intros i; apply Hgen; discriminate).
  assert (Hsome : forall i d, P d -> R (Generic i (Some d))) by (intros i d Hd; apply Hgen; intros d' E; now inversion E; subst).
  split; [|split].
  - intros d. now apply (edata_all P Q R).
  - intros x. now apply (symbol_all P Q R).
  - intros g. now apply (generic_all P Q R).
Qed.
Lemma osl_generic_answers l1 l2 : clonable_generics cfg l1 -> clonable_generics cfg l2 -> answers (osl_generic_equal l1 l2) (alike_generics l1 l2).
Proof. intros [H1 _] H2. apply generics_answers. revert H1. apply Forall_impl. intros x Hx. now apply equal_all. Qed.
Lemma statement_answers l1 : forall l2, Forall (clonable_statement cfg) l1 -> Forall (clonable_statement cfg) l2 -> answers (osl_statement_equal l1 l2) (Forall2 alike_statement l1 l2).
Proof.
  induction l1 as [|x l1 IH]; intros [|y l2] H1 H2; cbn [osl_statement_equal]; try apply answers_ub; [apply answers_ok; split; constructor|].
  inversion H1 as [|? ? (A1 & A2 & A3 & A4) H1']; inversion H2 as [|? ? (B1 & B2 & B3 & B4) H2']; subst.
  eapply answers_seq with (P := Forall2 alike_statement l1 l2) (Q := alike_statement x y); [| |split; [intros K; inversion K; now subst|intros []; now constructor]].
  - destruct l1 as [|x' l1]; [destruct l2|destruct l2 as [|y' l2]]; [apply answers_ok; split; constructor|apply answers_ok; split; [discriminate|intros K; inversion K]|apply answers_ok; split; [discriminate|intros K; inversion K]|].
    now apply IH.
  - intros _. unfold alike_statement. eapply answers_seq; [now apply union_answers| |reflexivity]. intros _.
    eapply answers_seq; [now apply union_answers| |reflexivity]. intros _.
    eapply answers_seq; [now apply list_answers| |reflexivity]. intros _. now apply osl_generic_answers.
Qed.
Lemma scop_answers l1 : forall l2, Forall (clonable_scop cfg) l1 -> Forall (clonable_scop cfg) l2 -> answers (osl_scop_equal l1 l2) (Forall2 alike_scop l1 l2).
Proof.
  induction l1 as [|x l1 IH]; intros [|y l2] H1 H2; cbn [osl_scop_equal]; try (apply answers_ok; split; [discriminate|intros K; inversion K]); [apply answers_ok; split; constructor|].
  inversion H1 as [|? ? (A1 & A2 & A3 & A4 & A5) H1']; inversion H2 as [|? ? (B1 & B2 & B3 & B4 & B5) H2']; subst.
  eapply answers_iff with (P := sc_version x = sc_version y /\ sc_language x = sc_language y /\ sc_context x = sc_context y /\ alike_generics (sc_params x) (sc_params y) /\
    Forall2 alike_statement (sc_stmts x) (sc_stmts y) /\ hd_error (sc_registry x) = hd_error (sc_registry y) /\ alike_generics (sc_ext x) (sc_ext y) /\ Forall2 alike_scop l1 l2).
  { split; [intros (E1 & E2 & E3 & E4 & E5 & E6 & E7 & E8); constructor; [|exact E8]; unfold alike_scop; tauto|intros K; inversion K; subst; unfold alike_scop in *; tauto]. }
  eapply answers_if; [apply Z.eqb_eq| |reflexivity]. intros _.
  eapply answers_seq; [apply strcmp_answers| |reflexivity]. intros _.
  eapply answers_seq; [now apply union_answers| |reflexivity]. intros _.
  eapply answers_seq; [now apply osl_generic_answers| |reflexivity]. intros _.
  eapply answers_seq; [now apply statement_answers| |reflexivity]. intros _.
  eapply answers_seq; [apply interface_answers| |reflexivity]. intros _.
  eapply answers_seq; [now apply osl_generic_answers| |reflexivity]. intros _. now apply IH.
Qed.
End EQUAL.

(** ** When there is an answer *)
Definition total (r : res bool) : Prop := exists b, r = Ok b.
Lemma total_ok b : total (Ok b). Proof. now exists b. Qed.
Lemma total_seq r k : total r -> total k -> total (b <- r ;; if negb b then Ok false else k).
Proof. intros [b ->] Hk. cbn [bind]. destruct b; [exact Hk|apply total_ok]. Qed.
Lemma total_seq' r k : total r -> total k -> total (b <- r ;; if b then k else Ok false).
Proof. intros [b ->] Hk. cbn [bind]. destruct b; [exact Hk|apply total_ok]. Qed.
Lemma total_or r k : total r -> total k -> total (b <- r ;; if b then Ok true else k).
Proof. intros [b ->] Hk. cbn [bind]. destruct b; [apply total_ok|exact Hk]. Qed.
Lemma total_if c k : total k -> total (if negb c then Ok false else k).
Proof. intros Hk. destruct c; [exact Hk|apply total_ok]. Qed.
Lemma strcmp_total a b : a <> None -> b <> None -> total (strcmp_eq a b).
Proof. destruct a, b; try congruence. intros. apply total_ok. Qed.
Lemma strcmp_same_total (p : bool) a b : (if p then a <> None else a = None) -> (if p then b <> None else b = None) -> total (strcmp_or_same a b).
Proof. destruct p, a, b; try congruence; intros; apply total_ok. Qed.

Section TOTAL.
Context {cfg : config} {p u : bool}.
Hypothesis Hc : config_ok cfg.
Lemma loop_total a b : settled_loop p u a -> settled_loop p u b -> total (osl_loop_equal_one a b).
Proof.
  intros (A1 & A2 & A3) (B1 & B2 & B3). unfold osl_loop_equal_one. apply total_if, total_seq; [now apply strcmp_total|].
  apply total_if, total_seq; [now apply (strcmp_same_total p)|]. apply total_if. now apply (strcmp_same_total u).
Qed.
Lemma loops_total a b : Forall (settled_loop p u) a -> Forall (settled_loop p u) b -> total (osl_loop_equal a b).
Proof.
  intros Ha Hb. assert (F : total (loops_found a b)).
  { induction Ha as [|x a Hx Ha IH]; cbn [loops_found]; [apply total_ok|]. apply total_seq'; [|exact IH].
    clear IH. induction Hb as [|y b Hy Hb IH]; cbn [loop_found]; [apply total_ok|]. apply total_or; [now apply loop_total|exact IH]. }
  unfold osl_loop_equal. destruct a, b; try apply total_ok. now apply total_if.
Qed.
Lemma union_total a b : Forall (wf_rel cfg) a -> Forall (wf_rel cfg) b -> total (osl_relation_equal a b).
Proof. intros H1 H2. destruct (equal_ok a b H1 H2) as (r & E & _). now exists r. Qed.
Lemma list_total l : forall m, Forall (Forall (wf_rel cfg)) l -> Forall (Forall (wf_rel cfg)) m -> total (osl_relation_list_equal l m).
Proof.
  induction l as [|x l IH]; intros [|y m] H1 H2; cbn [osl_relation_list_equal]; try apply total_ok.
  inversion H1; inversion H2; subst. apply total_seq'; [now apply union_total|now apply IH].
Qed.
Lemma leaf_total k d1 d2 : (forall l, d1 <> DSymbols l) -> clonable cfg k d1 -> clonable cfg k d2 -> settled p u d1 -> settled p u d2 -> total (data_equal k d1 (Some d2)).
Proof.
  intros Hl H1 H2 S1 S2. destruct k, d1; try contradiction; destruct d2; try contradiction; cbn [data_equal clonable settled] in *; try (now destruct (Hl l)); try apply total_ok.
  - apply union_total; tauto.
  - unfold osl_comment_equal. destruct (strcmp_total c c0 S1 S2) as [b ->]. apply total_ok.
  - unfold osl_coordinates_equal. destruct (strcmp_total _ _ S1 S2) as [b ->]. apply total_ok.
  - now apply strcmp_total.
  - destruct H1 as [N1 H1], H2 as [N2 H2]. destruct (C33_dependence_equal cfg l l0 Hc H1 H2 N1 N2) as (r & E & Hr). now exists r.
  - now apply loops_total.
  - destruct (C33_annotation_equal a a0) as (r & E & Hr); [now apply Forall_app|now apply Forall_app|]. now exists r.
Qed.
Lemma generics_total l1 l2 : Forall (fun x => total (generic_equal_one x l2)) l1 -> total (generics_equal_with generic_equal_one l1 l2).
Proof. intros H. unfold generics_equal_with. apply total_if. induction H; cbn [generics_found]; [apply total_ok|]. now apply total_seq'. Qed.
Lemma settled_fold l : fold_right (fun x P => settled_generic p u x /\ P) True l <-> Forall (settled_generic p u) l.
Proof. apply fold_Forall. Qed.
Lemma generic_found_total eq i l2 : if_uri i <> None -> Forall (clonable_generic cfg) l2 ->
  (forall y, In y l2 -> g_iface y = Some i -> total (eq (g_data y))) -> total (generic_found eq (Some i) l2).
Proof.
  intros Hi. induction 1 as [|y l2 Hy Hl IH]; intros He; cbn [generic_found]; [apply total_ok|].
  destruct y as [[[[v|] k]|] o]; try (now destruct o).
  assert (T : total (osl_interface_equal (Some i) (Some (Iface (Some v) k)))).
  { destruct i as [[w|] k']; [|easy]. cbn. apply total_ok. }
  destruct T as [b E]. cbn [g_iface]. rewrite E. cbn [bind]. destruct b; [|apply IH; intros z Hz; apply He; now right].
  apply (He _ (or_introl eq_refl)). cbn [g_iface]. apply interface_answers in E. symmetry. now apply E.
Qed.
Lemma total_all :
  (forall d1 k d2, clonable cfg k d1 -> clonable cfg k d2 -> settled p u d1 -> settled p u d2 -> total (data_equal k d1 (Some d2))) /\
  (forall x y, clonable_symbol cfg x -> clonable_symbol cfg y -> settled_symbol p u x -> settled_symbol p u y -> total (symbol_equal x y)) /\
  (forall g l2, clonable_generic cfg g -> Forall (clonable_generic cfg) l2 -> settled_generic p u g -> Forall (settled_generic p u) l2 -> total (generic_equal_one g l2)).
Proof.
  set (P := fun d1 => forall k d2, clonable cfg k d1 -> clonable cfg k d2 -> settled p u d1 -> settled p u d2 -> total (data_equal k d1 (Some d2))).
  set (Q := fun x => forall y, clonable_symbol cfg x -> clonable_symbol cfg y -> settled_symbol p u x -> settled_symbol p u y -> total (symbol_equal x y)).
  set (R := fun g => forall l2, clonable_generic cfg g -> Forall (clonable_generic cfg) l2 -> settled_generic p u g -> Forall (settled_generic p u) l2 -> total (generic_equal_one g l2)).
  assert (Hleaf : forall d, (forall l, d <> DSymbols l) -> P d) by (intros d Hd k d2; now apply leaf_total).
  assert (Hsym : forall l, Forall Q l -> P (DSymbols l)).
  { intros l Hq k d2 H1 H2 S1 S2. destruct k; try contradiction. destruct d2 as [| | | | | | | | | | | |l2| | | | |]; try contradiction.
    destruct H1 as [N1 H1], H2 as [N2 H2]. destruct l as [|x l]; [easy|]. destruct l2 as [|y l2]; [easy|]. inversion Hq; subst. cbn [fold_right] in H1, H2. cbn [data_equal].
    cbn [settled fold_right] in S1, S2. apply H3; tauto. }
  assert (Hsymbol : forall t g n a b c e, Forall R a -> Forall R b -> Forall R c -> Forall R e -> Q (Symbol t g n a b c e)).
  { intros t g n a b c e Ha Hb Hcc He [t' g' n' a' b' c' e'] H1 H2 S1 S2. cbn [clonable_symbol] in H1, H2. rewrite !(clonable_fold (cfg := cfg)) in H1, H2.
    cbn [settled_symbol] in S1, S2. rewrite !settled_fold in S1, S2.
    assert (G : forall l l', Forall R l -> (Forall (clonable_generic cfg) l /\ NoDup (map g_uri l)) -> (Forall (clonable_generic cfg) l' /\ NoDup (map g_uri l')) ->
      Forall (settled_generic p u) l -> Forall (settled_generic p u) l' -> total (generics_equal_with generic_equal_one l l')).
    { intros l l' HR [Hl _] [Hl' _] Sl Sl'. apply generics_total. clear - HR Hl Hl' Sl Sl'. induction HR; inversion Hl; inversion Sl; subst; constructor; auto. }
    cbn [symbol_equal]. destruct H1 as (A1 & A2 & A3 & A4), H2 as (B1 & B2 & B3 & B4), S1 as (C1 & C2 & C3 & C4), S2 as (D1 & D2 & D3 & D4).
    apply total_if, total_seq; [now apply G|]. apply total_seq; [now apply G|]. apply total_seq; [now apply G|]. now apply G. }
  assert (Hgen : forall i d, (forall d', d = Some d' -> P d') -> R (Generic i d)).
  { intros i d Hd l2 H1 H2 S1 S2. destruct i as [[[v|] k]|]; try (now destruct d). cbn [generic_equal_one].
    apply generic_found_total; [discriminate|exact H2|]. intros y Hy Ey. cbn [if_kind].
    assert (Cy : clonable_generic cfg y) by (rewrite Forall_forall in H2; now apply H2).
    assert (Sy : settled_generic p u y) by (rewrite Forall_forall in S2; now apply S2).
    destruct y as [j o]. cbn [g_iface g_data] in *. subst j. destruct d as [d|], o as [o|].
    - now apply (Hd d eq_refl).
    - assert (total (data_equal k d None)) as T; [|exact T]. assert (data_equal k d None = equal_null k) as -> by (now destruct d). destruct k; try contradiction; now eexists.
    - destruct k; try contradiction; now eexists.
    - destruct k; try contradiction; now eexists. }
  assert (Hnone : forall i, R (Generic i None)) by (intros i; apply Hgen; discriminate).
  assert (Hsome : forall i d, P d -> R (Generic i (Some d))) by (intros i d Hd; apply Hgen; intros d' E; now inversion E; subst).
  split; [|split].
  - intros d. now apply (edata_all P Q R).
  - intros x. now apply (symbol_all P Q R).
  - intros g. now apply (generic_all P Q R).
Qed.
Lemma osl_generic_total l1 l2 : clonable_generics cfg l1 -> clonable_generics cfg l2 -> Forall (settled_generic p u) l1 -> Forall (settled_generic p u) l2 -> total (osl_generic_equal l1 l2).
Proof.
  intros [H1 _] [H2 _] S1 S2. apply generics_total. rewrite Forall_forall in *. intros x Hx. apply total_all; auto; now apply Forall_forall.
Qed.
Definition settled_statement (st : statement) : Prop := Forall (settled_generic p u) (st_ext st).
Lemma statement_total l1 : forall l2, Forall (clonable_statement cfg) l1 -> Forall (clonable_statement cfg) l2 ->
  Forall settled_statement l1 -> Forall settled_statement l2 -> l1 <> [] -> l2 <> [] -> total (osl_statement_equal l1 l2).
Proof.
  induction l1 as [|x l1 IH]; intros [|y l2] H1 H2 S1 S2 N1 N2; try congruence. cbn [osl_statement_equal].
  inversion H1 as [|? ? (A1 & A2 & A3 & A4) H1']; inversion H2 as [|? ? (B1 & B2 & B3 & B4) H2']; inversion S1; inversion S2; subst.
  apply total_seq.
  - destruct l1 as [|x' l1], l2 as [|y' l2]; try apply total_ok. now apply IH.
  - apply total_seq; [now apply union_total|]. apply total_seq; [now apply union_total|]. apply total_seq; [now apply list_total|]. now apply osl_generic_total.
Qed.
Lemma scop_total l1 : forall l2, Forall (clonable_scop cfg) l1 -> Forall (clonable_scop cfg) l2 -> Forall (settled_scop p u) l1 -> Forall (settled_scop p u) l2 -> total (osl_scop_equal l1 l2).
Proof.
  induction l1 as [|x l1 IH]; intros [|y l2] H1 H2 S1 S2; cbn [osl_scop_equal]; try apply total_ok.
  inversion H1 as [|? ? (A1 & A2 & A3 & A4 & A5) H1']; inversion H2 as [|? ? (B1 & B2 & B3 & B4 & B5) H2'];
  inversion S1 as [|? ? (C1 & C2 & C3 & C4 & C5) S1']; inversion S2 as [|? ? (D1 & D2 & D3 & D4 & D5) S2']; subst.
  apply total_if, total_seq; [now apply strcmp_total|]. apply total_seq; [now apply union_total|]. apply total_seq; [now apply osl_generic_total|].
  apply total_seq; [now apply statement_total|]. apply total_seq; [|apply total_seq; [now apply osl_generic_total|now apply IH]].
  destruct A4 as [_ A4], B4 as [_ B4]. destruct (sc_registry x) as [|[[v|] k] r], (sc_registry y) as [|[[w|] k'] r']; try apply total_ok;
    exfalso; (apply Forall_inv in A4; now apply A4) || (apply Forall_inv in B4; now apply B4).
Qed.
End TOTAL.

(** ** C61 *)
(** The answer of each comparison, on objects that can be copied: data of extensions, lists of extensions, symbols, statements, scops. *)
Theorem C61_data : forall (cfg : config) k d1 d2, config_ok cfg -> clonable cfg k d1 -> clonable cfg k d2 -> answers (@data_equal cfg k d1 (Some d2)) (alike_data d1 d2).
Proof. intros cfg k d1 d2 Hc. now apply equal_all. Qed.
Print Assumptions C61_data.
(** Data against NULL: different, but for textual extensions; for dependences NULL is dereferenced. *)
Theorem C61_null : forall (cfg : config) k d, k <> KDependence ->
  @data_equal cfg k d None = Ok (kind_eqb k KTextual) /\ null_equal k (Some d) = Ok (kind_eqb k KTextual) /\ (k <> KRegion -> null_equal k None = Ok true).
Proof. intros cfg k d Hk. split; [|split]; [destruct k, d; (congruence || reflexivity)|destruct k; (congruence || reflexivity)|intros Hr; destruct k; (congruence || reflexivity)]. Qed.
Print Assumptions C61_null.
Theorem C61_extensions : forall (cfg : config) l1 l2, config_ok cfg -> clonable_generics cfg l1 -> clonable_generics cfg l2 ->
  answers (@osl_generic_equal cfg l1 l2) (alike_generics l1 l2).
Proof. intros cfg l1 l2 Hc. now apply osl_generic_answers. Qed.
Print Assumptions C61_extensions.
Theorem C61_symbols : forall (cfg : config) x y l1 l2, config_ok cfg -> clonable_symbol cfg x -> clonable_symbol cfg y ->
  answers (@osl_symbols_equal cfg (x :: l1) (y :: l2)) (alike_symbol x y).
Proof. intros cfg x y l1 l2 Hc H1 H2. cbn [osl_symbols_equal]. now apply equal_all. Qed.
Print Assumptions C61_symbols.
Theorem C61_statement : forall (cfg : config) l1 l2, config_ok cfg -> Forall (clonable_statement cfg) l1 -> Forall (clonable_statement cfg) l2 ->
  answers (@osl_statement_equal cfg l1 l2) (Forall2 alike_statement l1 l2).
Proof. intros cfg l1 l2 Hc. now apply statement_answers. Qed.
Print Assumptions C61_statement.
Theorem C61_scop : forall (cfg : config) l1 l2, config_ok cfg -> Forall (clonable_scop cfg) l1 -> Forall (clonable_scop cfg) l2 ->
  answers (@osl_scop_equal cfg l1 l2) (Forall2 alike_scop l1 l2).
Proof. intros cfg l1 l2 Hc. now apply scop_answers. Qed.
Print Assumptions C61_scop.
(** And there is always an answer when both sides have their names, no region, and statements. *)
Theorem C61_decides : forall (cfg : config) p u l1 l2, config_ok cfg -> Forall (clonable_scop cfg) l1 -> Forall (clonable_scop cfg) l2 ->
  Forall (settled_scop p u) l1 -> Forall (settled_scop p u) l2 -> decides (@osl_scop_equal cfg l1 l2) (Forall2 alike_scop l1 l2).
Proof.
  intros cfg p u l1 l2 Hc H1 H2 S1 S2. destruct (scop_total Hc l1 l2 H1 H2 S1 S2) as [b E]. exists b. split; [exact E|]. now apply (C61_scop cfg l1 l2 Hc H1 H2 b).
Qed.
Print Assumptions C61_decides.
Theorem C61_decides_extensions : forall (cfg : config) p u l1 l2, config_ok cfg -> clonable_generics cfg l1 -> clonable_generics cfg l2 ->
  Forall (settled_generic p u) l1 -> Forall (settled_generic p u) l2 -> decides (@osl_generic_equal cfg l1 l2) (alike_generics l1 l2).
Proof.
  intros cfg p u l1 l2 Hc H1 H2 S1 S2. destruct (osl_generic_total Hc l1 l2 H1 H2 S1 S2) as [b E]. exists b. split; [exact E|]. now apply (C61_extensions cfg l1 l2 Hc H1 H2 b).
Qed.
Print Assumptions C61_decides_extensions.
(** Without arrays, extbodies, loops, comments, textual data and regions, and with one symbol at most, data found equal is the same. *)
Definition plain (d : edata) : Prop :=
  match d with
  | DTextual _ | DComment _ | DArrays _ | DExtbody _ | DLoop _ | DSymbols _ | DRegion _ => False
  | _ => True
  end.
Theorem C61_plain : forall d1 d2, plain d1 -> alike_data d1 d2 -> d1 = d2.
Proof. intros d1 d2 H. destruct d1; try contradiction; cbn [alike_data]; auto. Qed.
Print Assumptions C61_plain.
(** Scops found equal have the same version, language, context and, statement by statement, the same relations in the same order. *)
Theorem C61_relations : forall l1 l2, Forall2 alike_scop l1 l2 ->
  map sc_version l1 = map sc_version l2 /\ map sc_language l1 = map sc_language l2 /\ map sc_context l1 = map sc_context l2 /\
  map (fun s => map st_domain (sc_stmts s)) l1 = map (fun s => map st_domain (sc_stmts s)) l2 /\
  map (fun s => map st_scattering (sc_stmts s)) l1 = map (fun s => map st_scattering (sc_stmts s)) l2 /\
  map (fun s => map st_access (sc_stmts s)) l1 = map (fun s => map st_access (sc_stmts s)) l2.
Proof.
  assert (G : forall A (f : statement -> A), (forall x y, alike_statement x y -> f x = f y) -> forall a b, Forall2 alike_statement a b -> map f a = map f b).
  { intros A f Hf a b H. induction H; cbn; [reflexivity|]. f_equal; auto. }
  intros l1 l2 H. induction H as [|x y l1 l2 (E1 & E2 & E3 & _ & E5 & _) H (I1 & I2 & I3 & I4 & I5 & I6)]; [repeat split|].
  cbn [map]. rewrite E1, E2, E3, I1, I2, I3, I4, I5, I6. repeat split; f_equal; apply G; try assumption; intros a b Hs; apply Hs.
Qed.
Print Assumptions C61_relations.
(** Scops found equal may differ: in the text of a comment, in a symbol after the first one, in the registry after its first interface. *)
Definition with_ext (l : list generic) (r : list interf) : scop :=
  Scop 1 (Some (lit "C")) (sc_context sample_scop) (sc_params sample_scop) (sc_stmts sample_scop) r l.
Definition comment_ext (s : str) : generic := Generic (Some (osl_interface_of KComment)) (Some (DComment (Some s))).
Definition symbols_ext (l : list symbol) : generic := Generic (Some (osl_interface_of KSymbols)) (Some (DSymbols l)).
Theorem C61_refuted :
  @osl_scop_equal lp64_debug [with_ext [comment_ext (lit "a")] default_registry] [with_ext [comment_ext (lit "b")] default_registry] = Ok true /\
  @osl_scop_equal lp64_debug [with_ext [symbols_ext [Symbol 1 0 1 [] [] [] []]] default_registry]
    [with_ext [symbols_ext [Symbol 1 0 1 [] [] [] []; Symbol 2 0 1 [] [] [] []]] default_registry] = Ok true /\
  @osl_scop_equal lp64_debug [with_ext [] default_registry] [with_ext [] (firstn 1 default_registry)] = Ok true /\
  @osl_scop_equal lp64_debug [with_ext [comment_ext (lit "a")] default_registry] [with_ext [symbols_ext []] default_registry] = Ok false.
Proof. repeat split; vm_compute; reflexivity. Qed.
Print Assumptions C61_refuted.
(** An extension whose interface is not known is equal to none: a list with one is never found equal to another list. *)
Theorem C61_no_interface : forall (cfg : config) d l1 l2, In (Generic None d) l1 -> @osl_generic_equal cfg l1 l2 <> Ok true.
Proof.
  intros cfg d l1 l2 Hi E. unfold osl_generic_equal, generics_equal_with in E. destruct (negb _); [discriminate|].
  assert (G : forall eq l, generic_found eq None l <> Ok true).
  { intros eq l. induction l as [|y l IH]; cbn [generic_found]; [discriminate|]. destruct (osl_interface_equal None (g_iface y)) as [[|]| | |]; cbn [bind]; try discriminate. exact IH. }
  induction l1 as [|x l1 IH]; [destruct Hi|]. cbn [generics_found] in E. destruct (bind_ok _ _ _ E) as (b & E1 & E2). destruct b; [|discriminate].
  destruct Hi as [->|Hi]; [|exact (IH Hi E2)]. cbn [generic_equal_one] in E1. exact (G _ _ E1).
Qed.
Print Assumptions C61_no_interface.
Example C61_no_interface_ex : @osl_generic_equal lp64_debug [Generic None None] [Generic None None] = Ok false.
Proof. reflexivity. Qed.
(** Statements against no statement: NULL is dereferenced. *)
Theorem C61_no_statement_refuted : forall (cfg : config) s l, @osl_statement_equal cfg [] (s :: l) = UB /\ @osl_statement_equal cfg (s :: l) [] = UB.
Proof. intros cfg s l. now split. Qed.
Print Assumptions C61_no_statement_refuted.
(** The hypotheses hold of a scop with symbols, a body and array names; extensions in another order are alike, other ones are not. *)
Definition swapped : scop :=
  Scop 1 (Some (lit "C")) (sc_context sample_scop) (sc_params sample_scop) (sc_stmts sample_scop) default_registry (rev (sc_ext sample_scop)).
Example C61_witness : clonable_scop lp64_debug sample_scop /\ settled_scop true true sample_scop /\ clonable_scop lp64_debug swapped /\ settled_scop true true swapped /\
  alike_scop sample_scop swapped /\ sample_scop <> swapped /\ @osl_scop_equal lp64_debug [sample_scop] [swapped] = Ok true /\ ~ Forall2 alike_scop [sample_scop; swapped] [swapped].
Proof.
  destruct C44_witness as (W & _). assert (S1 : settled_scop true true sample_scop).
  { split; [discriminate|]. split; [discriminate|]. split; [repeat constructor|]. split; [repeat constructor|]. constructor; [|repeat constructor]. cbn. repeat split; discriminate. }
  assert (W2 : clonable_scop lp64_debug swapped).
  { destruct W as (A1 & A2 & A3 & A4 & A5 & A6). split; [exact A1|]. split; [exact A2|]. split; [exact A3|]. split; [exact A4|]. unfold swapped. cbn [sc_ext].
    split; [apply Forall_rev, A5|]. rewrite map_rev. now apply NoDup_rev. }
  assert (S2 : settled_scop true true swapped).
  { destruct S1 as (A1 & A2 & A3 & A4 & A5). split; [exact A1|]. split; [exact A2|]. split; [exact A3|]. split; [exact A4|]. unfold swapped. cbn [sc_ext]. now apply Forall_rev. }
  destruct (C61_decides lp64_debug true true [sample_scop] [swapped] (or_intror eq_refl)) as (b & E & Hb); try (now constructor).
  assert (b = true) as ->. { assert (E' : @osl_scop_equal lp64_debug [sample_scop] [swapped] = Ok true) by (vm_compute; reflexivity). rewrite E' in E. now apply Ok_inj in E. }
  split; [exact W|]. split; [exact S1|]. split; [exact W2|]. split; [exact S2|]. split; [|split; [discriminate|split; [exact E|]]].
  - assert (F : Forall2 alike_scop [sample_scop] [swapped]) by now apply Hb. now inversion F.
  - intros F. inversion F as [|? ? ? ? _ F']. inversion F'.
Qed.
