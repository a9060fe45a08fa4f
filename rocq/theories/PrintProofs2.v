(** * PrintProofs2: attributes, names and texts of whole scops *)
From Coq Require Import ZifyBool ZifyNat.
From Verif Require Import Base IntModel VectorModel RelationModel UtilModel StringsModel RelTextModel
  Spec RelSpec TextSpec ExprSpec LoopLemmas TextInt UtilProofs UtilProofs2 PropUtil RelTextProofs RelTextProofs2 RelTextProofs3 RelTextProofs4
  RelationProofs4   PropStrings PropRelText PropRelation2 PropExpr PropExpr2 ExtModel ExtSpec ExtProofs PropExt PropExt2 PropExt3 ScopModel ScopSpec PropScop
  SaveSpec SaveProofs SaveProofs2 SaveProofs3 SaveProofs4 PrintSpec PrintProofs.

(** ** Lines *)
Lemma short_ended t : short_lines (t ++ [c_nl]) -> lines (t ++ [c_nl]).
Proof.
  intros H.
  assert (G : forall a b : str, short_lines (a ++ b ++ [c_nl]) -> no_nl a -> lines (a ++ b ++ [c_nl])).
  { clear. intros a b. revert a. induction b as [|x b IH]; intros a H Hn.
    - cbn [app] in *. apply lines_one; [assumption|]. specialize (H [] a [c_nl] eq_refl Hn). unfold zlength. lia.
    - destruct (ceqb x c_nl) eqn:Ex.
      + apply ceqb_eq in Ex. subst x. cbn [app] in *. apply lines_cons; [assumption| |].
        * specialize (H [] a _ eq_refl Hn). unfold zlength. lia.
        * apply (IH []); [|apply no_nl_nil]. cbn [app]. change (a ++ c_nl :: b ++ [c_nl]) with (a ++ [c_nl] ++ b ++ [c_nl]) in H. rewrite app_assoc in H.
          now apply short_lines_tail in H.
      + replace (a ++ (x :: b) ++ [c_nl]) with ((a ++ [x]) ++ b ++ [c_nl]) in * by (rewrite <- app_assoc; reflexivity).
        apply IH; [assumption|]. apply no_nl_app. split; [assumption|]. apply no_nl_cons; [assumption|apply no_nl_nil]. }
  apply (G [] t); [exact H|apply no_nl_nil].
Qed.
Lemma lines_nl : lines [c_nl].
Proof. apply (lines_one []); [apply no_nl_nil|cbn; lia]. Qed.
Lemma lines_nl_cons t : lines t -> lines (c_nl :: t).
Proof. intros H. apply (lines_app [c_nl]); [apply lines_nl|assumption]. Qed.
Lemma lines_ln l : no_nl l -> zlength l <= 2046 -> lines (ln l).
Proof. intros H1 H2. unfold ln. now apply lines_one. Qed.
Lemma lines_lnZ v : c_int v -> lines (lnZ v).
Proof. intros H. unfold lnZ. apply lines_ln; [apply print_Z_no_nl|]. pose proof (print_int_length v H). lia. Qed.

(** ** One union *)
Section P.
Variable cfg : config.
Variable p m : Z.
Hypothesis Hcfg : config_ok cfg.
Hypothesis Hsup : supported cfg p.
Hypothesis Hm : 12 <= m.

Lemma union_lines u n t : Forall (savable cfg p t) u -> union_fits m u -> Forall (fun r => enough_names r n) u ->
  short_names m n -> one_line_names (Some n) -> arrays_known u (zlength (elems (n_arrays n))) ->
  exists text, osl_relation_spprint u (Some n) = Ok text /\ lines text.
Proof.
  intros Hsv Hf Hen Hs Hone Harr. destruct u as [|r0 u0]; [exists []; split; [reflexivity|constructor]|]. set (u := r0 :: u0) in *.
  assert (Hne : u <> []) by discriminate. assert (Hlen : zlength u < 2 ^ 31 - 1) by apply Hf.
  assert (Hu : Forall (printable cfg 10 m) u) by now apply (union_printable cfg p t).
  assert (W : wf_union cfg u) by (eapply Forall_impl; [|exact Hu]; intros r (W & _); exact W).
  assert (Hall : forall r r', In r u -> In r' u -> access_type (rtype r) -> access_type (rtype r')).
  { rewrite Forall_forall in Hsv. intros r r' H1 H2. destruct (Hsv r H1) as (_ & _ & -> & _), (Hsv r' H2) as (_ & _ & -> & _). auto. }
  assert (HB : 10 + m + 3 < 2048).
  { subst u. apply Forall_inv in Hu. destruct Hu as (W' & (Ho & Hi & Hl & Hpp & Hc & _) & _ & _ & Hw). nia. }
  destruct (spprint_total Hcfg 10 m ltac:(lia) ltac:(lia) HB ltac:(lia) u n Hne Hs Hone) as (text & Et & Ht); [|assumption|eauto].
  intros pre r post E. assert (Hin : In r u) by (rewrite E; apply in_or_app; right; now left).
  rewrite Forall_forall in Hu, Hen. specialize (Hu r Hin). specialize (Hen r Hin).
  split; [apply Hu|]. split; [apply (printable_dims cfg 10 m); [lia|lia|assumption]|]. split; [now apply (printable_coefs cfg 10 m)|].
  split; [apply Hu|]. split; [assumption|]. split; [apply Hu|].
  intros Hacc. eapply access_id; eauto.
Qed.

(** ** All unions *)
Definition good_union (u : list relation) : Prop :=
  (exists t, Forall (savable cfg p t) u) /\ union_fits m u /\ arrays_known u (2 ^ 31 - 1).
Lemma fixes_small r n : fixes_array r n -> Forall (Forall (fun v => - 2 ^ 31 < v <= 2 ^ 31 - 1)) (rows r) -> n <= 2 ^ 31 - 1.
Proof.
  intros (H0 & pre & post & a & c & Ha & Hac & E & _) Hs. rewrite E in Hs. apply Forall_app in Hs. destruct Hs as [_ Hs]. apply Forall_inv in Hs.
  rewrite Forall_forall in Hs. assert (X : - 2 ^ 31 < c <= 2 ^ 31 - 1).
  { apply Hs. right. right. apply in_or_app. right. now left. }
  assert (Z.abs (a * n) <= 2 ^ 31 - 1) by lia. rewrite Z.abs_mul in H. nia.
Qed.
Lemma coherent_known u type outs ins pars : coherent u type outs ins pars -> union_fits m u -> arrays_known u (2 ^ 31 - 1).
Proof.
  intros Hc [_ Hf]. destruct u as [|r u].
  { intros _. exists 0. split; [lia|]. split; constructor. }
  intros Ha. destruct (Hc r u eq_refl) as (_ & _ & _ & _ & _ & _ & _ & _ & _ & _ & _ & X).
  destruct (X [] r u eq_refl (Forall_inv Ha)) as (n & Hn). exists n.
  assert (Hs : Forall (fun r => Forall (Forall (fun v => - 2 ^ 31 < v <= 2 ^ 31 - 1)) (rows r)) (r :: u)).
  { revert Hf. apply Forall_impl. intros x (_ & H & _). exact H. }
  split; [|auto]. apply (fixes_small r); [now apply Forall_inv in Hn|now apply Forall_inv in Hs].
Qed.
Lemma statement_unions registry ep s : statement_ok cfg p registry s -> coherent_statement ep s ->
  Forall (union_fits m) (relations_of_statement s) -> Forall good_union (relations_of_statement s).
Proof.
  intros (Hd & Hc & _ & Ha & _) (Cd & Cc & Ca & _) Hf. unfold relations_of_statement in *.
  apply Forall_cons_iff in Hf. destruct Hf as [F1 Hf]. apply Forall_cons_iff in Hf. destruct Hf as [F2 Hf].
  constructor; [|constructor].
  - split; [exists TYPE_DOMAIN; apply Hd|]. split; [assumption|]. now apply coherent_known in Cd.
  - split; [exists TYPE_SCATTERING; apply Hc|]. split; [assumption|]. now apply coherent_known in Cc.
  - rewrite Forall_forall in *. intros u Hu. specialize (Ha u Hu). destruct Ha as (_ & t & _ & _ & Ha).
    split; [eauto|]. split; [auto|]. apply (coherent_known _ _ _ _ _ (Ca u Hu)). auto.
Qed.
Lemma scop_unions registry s : scop_ok cfg p registry s -> coherent_scop s -> Forall (union_fits m) (relations_of_scop s) ->
  Forall good_union (relations_of_scop s).
Proof.
  intros (_ & _ & _ & _ & Hco & _ & _ & Hst & _) [C1 C2] Hf. unfold relations_of_scop in *.
  apply Forall_cons_iff in Hf. destruct Hf as [F1 Hf]. constructor.
  - split; [exists TYPE_CONTEXT; apply Hco|]. split; [assumption|]. now apply coherent_known in C1.
  - revert Hst C2 Hf. generalize (announced npar (sc_context s)). intros ep. generalize (sc_stmts s). intros l.
    induction l as [|x l IH]; intros Hst C2 Hf; [constructor|]. cbn [relations_of_statements flat_map] in *.
    apply Forall_cons_iff in Hst, C2. destruct Hst, C2. apply Forall_app in Hf. destruct Hf. apply Forall_app. split; [|auto].
    now apply (statement_unions registry ep).
Qed.
Lemma scops_unions registry l : Forall (scop_ok cfg p registry) l -> Forall coherent_scop l -> Forall (fun s => Forall (union_fits m) (relations_of_scop s)) l ->
  Forall good_union (relations_of_scops l).
Proof.
  induction l as [|s l IH]; intros H1 H2 H3; [constructor|]. apply Forall_cons_iff in H1, H2, H3. destruct H1, H2, H3.
  cbn [relations_of_scops flat_map]. apply Forall_app. split; [now apply (scop_unions registry)|auto].
Qed.

(** ** Attributes always exist *)
Lemma good_attributes u a : good_union u -> exists a', @osl_relation_get_attributes cfg u a = Ok a'.
Proof.
  intros ((t & Hs) & _ & Ha). apply (attributes_total cfg t (2 ^ 31 - 1)); try assumption.
  - revert Hs. apply Forall_impl. intros r (W & _). exact W.
  - revert Hs. apply Forall_impl. intros r (_ & _ & E & _). exact E.
Qed.
Lemma list_attrs l : Forall good_union l -> forall loc a, exists a', list_attributes l loc a = Ok a'.
Proof.
  induction 1 as [|u l Hu Hl IH]; intros loc a; cbn [list_attributes]; [eauto|].
  destruct (good_attributes u loc Hu) as (x & ->). cbn [bind]. apply IH.
Qed.
Lemma statement_attrs l : Forall good_union (relations_of_statements l) -> forall loc a, exists a', statement_attributes l loc a = Ok a'.
Proof.
  induction l as [|s l IH]; intros H loc a; cbn [statement_attributes]; [eauto|].
  cbn [relations_of_statements flat_map relations_of_statement] in H. apply Forall_app in H. destruct H as [H1 H].
  apply Forall_cons_iff in H1. destruct H1 as [D H1]. apply Forall_cons_iff in H1. destruct H1 as [C A].
  destruct (good_attributes _ loc D) as (x & ->). cbn [bind]. destruct (good_attributes _ x C) as (y & ->). cbn [bind].
  unfold osl_relation_list_get_attributes. destruct (list_attrs _ A undefined_attrs y) as (z & ->). cbn [bind]. now apply IH.
Qed.
Lemma scop_attrs l : Forall good_union (relations_of_scops l) -> forall loc a, exists a', scop_attributes l loc a = Ok a'.
Proof.
  induction l as [|s l IH]; intros H loc a; cbn [scop_attributes]; [eauto|].
  cbn [relations_of_scops flat_map] in H. apply Forall_app in H. destruct H as [H1 H]. unfold relations_of_scop in H1.
  apply Forall_cons_iff in H1. destruct H1 as [C A].
  destruct (good_attributes _ loc C) as (x & ->). cbn [bind].
  unfold osl_statement_get_attributes. destruct (statement_attrs _ A undefined_attrs x) as (z & ->). cbn [bind]. now apply IH.
Qed.

(** ** Names *)
Definition named (n : names) (u : list relation) : Prop :=
  Forall (fun r => enough_names r n) u /\ arrays_known u (zlength (elems (n_arrays n))).
Lemma good_id u pre r post : good_union u -> u = pre ++ r :: post -> access_type (rtype r) ->
  exists id, osl_relation_get_array_id (r :: post) = Ok id /\ 1 <= id <= 2 ^ 31 - 1.
Proof.
  intros ((t & Hs) & _ & Ha) E Hacc. apply (access_id cfg u (2 ^ 31 - 1) Hcfg) with (pre := pre); try assumption.
  - revert Hs. apply Forall_impl. intros x (W & _). exact W.
  - rewrite Forall_forall in Hs. intros x y H1 H2. destruct (Hs x H1) as (_ & _ & -> & _), (Hs y H2) as (_ & _ & -> & _). auto.
  - now apply is_access_spec.
Qed.
Lemma good_dims u r : good_union u -> In r u -> coherent_dims r /\ c_int (nout r) /\ c_int (nin r) /\ c_int (nloc r) /\ c_int (npar r).
Proof.
  intros ((t & Hs) & [_ Hf] & _) Hin. rewrite Forall_forall in Hs, Hf. destruct (Hs r Hin) as (_ & _ & _ & _ & _ & H1 & H2 & H3 & H4).
  destruct (Hf r Hin) as (Hd & _). auto.
Qed.
Lemma attribute_small visited a : Forall good_union visited -> (forall w, maximum_of visited w (-1) (attribute_in w a)) ->
  forall w, attribute_in w a <= 2 ^ 31 - 1.
Proof.
  intros Hg H w. destruct (H w) as (_ & _ & [X|[X|X]]); [lia|lia|]. destruct X as (u & pre & r & post & id & Hu & E & Hid & ->).
  rewrite Forall_forall in Hg. specialize (Hg u Hu). assert (Hin : In r u) by (rewrite E; apply in_or_app; right; now left).
  destruct (good_dims u r Hg Hin) as (Hd & D1 & D2 & D3 & D4). unfold c_int in *.
  destruct w; cbn [attribute_of]; repeat match goal with |- context [if ?b then _ else _] => destruct b eqn:? end; try lia.
  assert (Hacc : access_type (rtype r)) by (apply is_access_spec; unfold osl_relation_is_access; assumption).
  destruct (good_id u pre r post Hg E Hacc) as (id' & E' & Hb). rewrite (Hid Hacc) in E'. apply Ok_inj in E'. lia.
Qed.
(** What the attributes bound. *)
Lemma attribute_bounds visited a u r : Forall good_union visited -> (forall w, maximum_of visited w (-1) (attribute_in w a)) ->
  In u visited -> In r u ->
  npar r <= a_par a /\ nloc r <= a_loc a /\ nin r <= a_iter a /\ (rtype r = TYPE_DOMAIN -> nout r <= a_iter a) /\
  (~ access_type (rtype r) -> rtype r <> TYPE_DOMAIN -> rtype r <> TYPE_CONTEXT -> nout r <= a_scat a) /\
  0 <= a_iter a /\ 0 <= a_scat a /\ 0 <= a_id a /\
  (forall pre post id, u = pre ++ r :: post -> access_type (rtype r) -> osl_relation_get_array_id (r :: post) = Ok id -> id <= a_id a).
Proof.
  intros Hg H Hu Hin. assert (Hgu : good_union u) by (rewrite Forall_forall in Hg; auto). destruct (good_dims u r Hgu Hin) as (Hd & D1 & D2 & D3 & D4).
  assert (X : forall w pre post, u = pre ++ r :: post -> exists id, attribute_of w r id <= attribute_in w a /\
     (access_type (rtype r) -> osl_relation_get_array_id (r :: post) = Ok id)).
  { intros w pre post E. destruct (H w) as (_ & B & _). destruct (B u pre r post Hu E) as (id & ? & ?). eauto. }
  apply in_split in Hin as (pre & post & E).
  destruct (X Parameters pre post E) as (? & X1 & _). destruct (X Iterators pre post E) as (? & X2 & _).
  destruct (X Scattdims pre post E) as (? & X3 & _). destruct (X Localdims pre post E) as (? & X4 & _).
  destruct (X ArrayId pre post E) as (id5 & X5 & Y5).
  destruct Hd as (Ho & Hi & Hl & Hpp & _ & Hctx & Hdom & _).
  assert (Z5 : 0 <= a_id a).
  { cbn [attribute_of attribute_in] in X5. destruct (_ || _) eqn:Eacc in X5; [|lia].
    assert (Hacc : access_type (rtype r)) by (apply is_access_spec; unfold osl_relation_is_access; assumption).
    destruct (good_id u pre r post Hgu E Hacc) as (id' & E' & Hb). rewrite (Y5 Hacc) in E'. apply Ok_inj in E'. lia. }
  assert (W5 : forall pre post id, u = pre ++ r :: post -> access_type (rtype r) -> osl_relation_get_array_id (r :: post) = Ok id -> id <= a_id a).
  { intros pre' post' id E' Hacc Hid. destruct (X ArrayId pre' post' E') as (id6 & X6 & Y6). rewrite (Y6 Hacc) in Hid. apply Ok_inj in Hid. subst id6.
    cbn [attribute_of attribute_in] in X6. apply is_access_spec in Hacc. unfold osl_relation_is_access in Hacc. now rewrite Hacc in X6. }
  cbn [attribute_of attribute_in] in X1, X2, X3, X4. unfold access_type in *.
  destruct (Z.eqb_spec (rtype r) TYPE_CONTEXT) as [Ec|Ec]; destruct (Z.eqb_spec (rtype r) TYPE_DOMAIN) as [Ed|Ed];
    destruct (Z.eqb_spec (rtype r) TYPE_ACCESS); destruct (Z.eqb_spec (rtype r) TYPE_READ);
    destruct (Z.eqb_spec (rtype r) TYPE_WRITE); destruct (Z.eqb_spec (rtype r) TYPE_MAY_WRITE); cbn [orb] in *;
    rewrite ?Ec, ?Ed in *; try discriminate; repeat split; intros; try lia; try tauto; try (apply (W5 pre0 post0); assumption).
Qed.

Lemma generate_elems prefix v s : osl_strings_generate prefix v = Ok s -> 0 <= v /\ elems s = generated_names prefix v.
Proof.
  intros H. destruct (Z.ltb_spec v 0) as [Hneg|Hpos]; [rewrite (C29_generate_negative_refuted prefix v Hneg) in H; discriminate|].
  split; [assumption|]. destruct (C29_generate prefix v Hpos) as (s' & E & Hsz & Hnth & _). rewrite H in E. apply Ok_inj in E. subst s'.
  assert (Hl : List.length (elems s) = Z.to_nat v).
  { unfold osl_strings_size in Hsz. destruct s as [l|]; cbn [elems] in *; unfold zlength in Hsz; cbn; lia. }
  unfold generated_names. apply (nth_ext _ _ [] (prefix ++ print_Z (Z.of_nat 0))).
  - rewrite map_length, seq_length. exact Hl.
  - intros j Hj. assert (Hj' : (j < Z.to_nat v)%nat) by (rewrite <- Hl; exact Hj). rewrite (map_nth (fun i => prefix ++ print_Z (Z.of_nat i)) (seq 1 (Z.to_nat v)) 0%nat j). rewrite seq_nth by exact Hj'.
    specialize (Hnth (Z.of_nat j + 1) ltac:(lia)). replace (Z.to_nat (Z.of_nat j + 1 - 1)) with j in Hnth by lia.
    apply (nth_error_nth _ _ []) in Hnth. rewrite Hnth. replace (Z.of_nat (1 + j)) with (Z.of_nat j + 1) by lia. reflexivity.
Qed.

Lemma scop_names_total l : l <> [] -> Forall (fun s => sc_context s <> []) l -> Forall good_union (relations_of_scops l) ->
  exists n, osl_scop_names l = Ok n /\ short_names 12 n /\ one_line_names (Some n) /\ Forall (named n) (relations_of_scops l).
Proof.
  intros Hne Hctx Hg. unfold osl_scop_names. destruct (scop_attrs l Hg undefined_attrs undefined_attrs) as (a & Ea).
  assert (E' : osl_scop_get_attributes l undefined_attrs = Ok a) by exact Ea. rewrite E'. cbn [bind].
  assert (Hmax : forall w, maximum_of (relations_of_scops l) w (-1) (attribute_in w a)).
  { intros w. pose proof (C19_scop_attributes cfg l undefined_attrs a w E') as X. destruct w; exact X. }
  pose proof (attribute_small _ _ Hg Hmax) as Hsm. pose proof (fun u r => attribute_bounds _ _ u r Hg Hmax) as Hb.
  destruct l as [|s0 l0]; [congruence|]. destruct (sc_context s0) as [|r0 u0] eqn:E0; [apply Forall_inv in Hctx; congruence|].
  assert (In0 : In (sc_context s0) (relations_of_scops (s0 :: l0))) by (cbn; left; reflexivity).
  destruct (Hb (sc_context s0) r0 In0) as (B1 & B2 & _ & _ & _ & B3 & B4 & B5 & _); [rewrite E0; now left|].
  assert (Hg0 : good_union (sc_context s0)) by (rewrite Forall_forall in Hg; auto).
  destruct (good_dims _ r0 Hg0 ltac:(rewrite E0; now left)) as ((Ho & Hi & Hl & Hpp & _) & _).
  assert (Hgen : forall pfx v, 0 <= v -> exists s, osl_strings_generate pfx v = Ok s).
  { intros pfx v Hv. destruct (C29_generate pfx v Hv) as (s & E & _). eauto. }
  destruct (Hgen (lit "P") (a_par a) ltac:(lia)) as (sp & Esp). destruct (Hgen (lit "i") (a_iter a) ltac:(lia)) as (si & Esi).
  destruct (Hgen (lit "c") (a_scat a) ltac:(lia)) as (sc & Esc). destruct (Hgen (lit "l") (a_loc a) ltac:(lia)) as (sl & Esl).
  destruct (Hgen (lit "A") (a_id a) ltac:(lia)) as (sa & Esa).
  assert (En : names_of a = Ok (Names sp si sc sl sa)) by (unfold names_of, osl_names_generate; now rewrite Esp, Esi, Esc, Esl, Esa).
  exists (Names sp si sc sl sa). split; [exact En|].
  assert (Hs1 : forall c : ascii, ceqb c c_nl = false -> no_nl [c]) by (intros c Hc; apply no_nl_cons; [assumption|apply no_nl_nil]).
  destruct (generate_short (lit "P") _ _ eq_refl (Hs1 "P"%char eq_refl) (Hsm Parameters) Esp) as [L1 F1].
  destruct (generate_short (lit "i") _ _ eq_refl (Hs1 "i"%char eq_refl) (Hsm Iterators) Esi) as [L2 F2].
  destruct (generate_short (lit "c") _ _ eq_refl (Hs1 "c"%char eq_refl) (Hsm Scattdims) Esc) as [L3 F3].
  destruct (generate_short (lit "l") _ _ eq_refl (Hs1 "l"%char eq_refl) (Hsm Localdims) Esl) as [L4 F4].
  destruct (generate_short (lit "A") _ _ eq_refl (Hs1 "A"%char eq_refl) (Hsm ArrayId) Esa) as [L5 F5].
  split; [unfold short_names; cbn [n_params n_iters n_scatt n_locals n_arrays]; repeat (apply Forall_app; split); assumption|].
  split; [exact (names_of_ok _ _ En)|].
  apply Forall_forall. intros u Hu. assert (Hgu : good_union u) by (rewrite Forall_forall in Hg; auto). split.
  - apply Forall_forall. intros r Hr. destruct (Hb u r Hu Hr) as (C1 & C2 & C3 & C4 & C5 & _).
    destruct (good_dims u r Hgu Hr) as ((Ho' & Hi' & Hl' & Hpp' & _ & Hctx' & _) & _).
    unfold enough_names. cbn [n_params n_iters n_scatt n_locals]. rewrite L1, L2, L3, L4. cbn [attribute_in] in *.
    split; [|split; [assumption|]; lia]. intros [E|E]; [auto|]. rewrite (Hctx' E). lia.
  - cbn [n_arrays]. rewrite L5. cbn [attribute_in]. intros Hf. pose proof Hgu as (_ & _ & Ha). destruct (Ha Hf) as (n & Hn & Hfix & Hsmall).
    destruct u as [|r u]; [exists 0; split; [lia|split; constructor]|]. exists n. split; [|auto].
    destruct (Hb (r :: u) r Hu (or_introl eq_refl)) as (_ & _ & _ & _ & _ & _ & _ & _ & X). apply (X [] u n eq_refl (Forall_inv Hf)).
    destruct Hgu as ((t & Hs) & _). apply get_array_id_complete; [assumption| |exact Hsmall|now apply Forall_inv in Hf|assumption].
    revert Hs. apply Forall_impl. intros x (W & _). exact W.
Qed.
End P.
