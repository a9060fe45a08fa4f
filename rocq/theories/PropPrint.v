(** * PropPrint: every coherent scop prints, with the names it gives, and reads back (C53) *)
From Coq Require Import ZifyBool ZifyNat.
From Verif Require Import Base IntModel VectorModel RelationModel UtilModel StringsModel RelTextModel
  Spec RelSpec TextSpec ExprSpec LoopLemmas TextInt UtilProofs UtilProofs2 PropUtil RelTextProofs RelTextProofs2 RelTextProofs3 RelTextProofs4
  RelationProofs4 PropStrings PropRelText PropRelation2 PropExpr PropExpr2 ExtModel ExtSpec ExtProofs PropExt PropExt2 PropExt3 ScopModel ScopSpec PropScop
  SaveSpec SaveProofs SaveProofs2 SaveProofs3 SaveProofs4 PropScop2 PrintSpec PrintProofs PrintProofs2 PrintProofs3 PrintProofs4.

(** ** Printing succeeds *)
(** Every extension that the format can carry is printed, between the tags of its URI. *)
Theorem C53_extensions : forall (cfg : config) p m u k d, config_ok cfg -> supported cfg p -> 12 <= m ->
  generic_ok cfg p default_registry (Generic (Some (Iface (Some u) k)) (Some d)) -> data_fits m d ->
  exists content, osl_generic_sprint [Generic (Some (Iface (Some u) k)) (Some d)] = Ok (start_tag u ++ [c_nl] ++ content ++ end_tag u ++ [c_nl]) /\
    data_sprint k d = Ok (Some content).
Proof.
  intros cfg p m u k d Hc Hp Hm Hg Hf. destruct (all_print cfg p m Hc Hp Hm) as (D & _ & A). pose proof Hg as Hg'. inversion Hg' as [registry u' k' d' Ht Hl Hd Ho E]; subst.
  destruct (D k d Hd Hf) as (content & Ec). exists content. split; [|assumption].
  destruct (A default_registry _ Hg eq_refl Hf) as (t & Et). unfold osl_generic_sprint. cbn [generics_text]. rewrite Et. cbn [bind]. rewrite !app_nil_r. f_equal.
  change (generic_sprint_one (Generic (Some (Iface (Some u) k)) (Some d))) with
      (o <- data_sprint k d ;; match o with None => Ok [] | Some content => a <- opening (Iface (Some u) k) ;; b <- closing (Iface (Some u) k) ;; Ok (a ++ content ++ b) end) in Et.
  rewrite Ec in Et. cbn [bind] in Et. inv_bind Et. inv_bind Et. apply Ok_inj in Et.
  rewrite (closing_ok (Iface (Some u) k) u _ eq_refl E0) in Et. destruct (opening_ok (Iface (Some u) k) u _ eq_refl E) as [X _]. rewrite X in Et. subst t.
  rewrite <- !app_assoc. reflexivity.
Qed.
Print Assumptions C53_extensions.

(** The tags are those of the OpenScop format, for all interfaces of the library. *)
Theorem C53_tags : forall (cfg : config) k u d text, In (k, u) tag_table ->
  osl_generic_sprint [osl_generic_shell (Some d) (Some (osl_interface_of k))] = Ok text ->
  data_sprint k d = Ok None /\ text = [] \/
  exists content, data_sprint k d = Ok (Some content) /\ text = start_tag u ++ [c_nl] ++ content ++ end_tag u ++ [c_nl].
Proof.
  intros cfg k u d text Hin E. assert (Hu : if_uri (osl_interface_of k) = Some u).
  { cbn in Hin. repeat (destruct Hin as [X|Hin]; [injection X as <- <-; reflexivity|]). destruct Hin. }
  unfold osl_generic_sprint, osl_generic_shell in E. cbn [generics_text] in E. inv_bind E. cbn [bind] in E. rewrite !app_nil_r in E. apply Ok_inj in E. subst v.
  change (generic_sprint_one (Generic (Some (osl_interface_of k)) (Some d))) with
      (o <- data_sprint k d ;; match o with None => Ok [] | Some content => a <- opening (osl_interface_of k) ;; b <- closing (osl_interface_of k) ;; Ok (a ++ content ++ b) end) in E0.
  inv_bind E0. destruct v as [content|]; [|left; apply Ok_inj in E0; auto]. right. exists content. split; [assumption|]. inv_bind E0. rename E1 into Eo. inv_bind E0. rename E1 into Ek. apply Ok_inj in E0.
  rewrite (closing_ok _ u _ Hu Ek) in E0. destruct (opening_ok _ u _ Hu Eo) as [X _]. rewrite X in E0. subst text. rewrite <- !app_assoc. reflexivity.
Qed.
Print Assumptions C53_tags.
(** And these are the interfaces known by default. *)
Theorem C53_registry : forall k u, In (k, u) tag_table <-> (osl_interface_lookup default_registry u = Some (Iface (Some u) k)).
Proof.
  intros k u. split.
  - intros Hin. cbn in Hin. repeat (destruct Hin as [X|Hin]; [injection X as <- <-; vm_compute; reflexivity|]). destruct Hin.
  - intros H. assert (G : forall l, osl_interface_lookup (map osl_interface_of l) u = Some (Iface (Some u) k) -> u = uri_of k).
    { clear. induction l as [|k0 l IH]; [discriminate|]. cbn [map osl_interface_lookup osl_interface_of if_uri]. destruct (str_eqb (uri_of k0) u) eqn:E; [|exact IH].
      intros X. apply Some_inj in X. unfold osl_interface_of in X. congruence. }
    apply G in H. subst u. destruct k; cbn; tauto.
Qed.
Print Assumptions C53_registry.

Theorem C53_prints : forall (cfg : config) p m l, config_ok cfg -> supported cfg p -> 16 <= m ->
  Forall (scop_ok cfg p default_registry) l -> Forall c_sizes l -> Forall coherent_scop l -> Forall (scop_fits m) l ->
  exists text, osl_scop_print l = Ok text /\ short_lines text.
Proof.
  intros cfg p m l Hc Hp Hm Hok Hsz Hco Hf. destruct l as [|s0 l0].
  { eexists. split; [reflexivity|]. apply lines_short. litline. }
  set (l := s0 :: l0) in *. assert (Hne : l <> []) by discriminate. clearbody l.
  assert (HF : Forall (fun s => Forall (union_fits m) (relations_of_scop s)) l) by (revert Hf; apply Forall_impl; intros s (H & _); exact H).
  pose proof (scops_unions cfg p m default_registry l Hok Hco HF) as Hg.
  assert (Hctx : Forall (fun s => sc_context s <> []) l) by (revert Hok; apply Forall_impl; intros s (_ & _ & _ & H & _); exact H).
  destruct (scop_names_total cfg p m Hc l Hne Hctx Hg) as (n & En & Hs & Hone & Hn).
  assert (Hr : ready m n) by (split; [revert Hs; unfold short_names; apply Forall_impl; intros w Hw; lia|assumption]).
  assert (HI : osl_scop_integrity_check l = Ok true).
  { apply (C36_integrity_complete cfg); try assumption.
    - revert Hg. apply Forall_impl. intros u ((t & Hs') & _). revert Hs'. apply Forall_impl. intros r (W & _). exact W.
    - revert Hg. apply Forall_impl. intros u (_ & [_ Hf'] & _). revert Hf'. apply Forall_impl. intros r (_ & H & _). exact H.
    - now apply (bodies cfg p default_registry). }
  assert (HP : exists t, print_all (fun s => scop_print_one s n) l = Ok t /\ lines t).
  { clear HI En Hctx Hg HF Hne Hsz. unfold relations_of_scops in Hn. induction l as [|s l IH]; cbn [print_all]; [exists []; split; [reflexivity|constructor]|].
    apply Forall_cons_iff in Hok, Hco, Hf. destruct Hok, Hco, Hf. cbn [flat_map] in Hn. apply Forall_app in Hn. destruct Hn as [N1 N2].
    destruct (scop_total cfg p m Hc Hp Hm n s) as (t & -> & Ht); try assumption. cbn [bind].
    destruct IH as (t' & -> & Ht'); try assumption. cbn [bind]. eexists. split; [reflexivity|]. now apply lines_app. }
  destruct HP as (t & Et & Ht). exists (lit "# [File generated by the OpenScop Library " ++ release ++ ln (lit "]") ++ t). split.
  - unfold osl_scop_print. destruct l as [|s l]; [congruence|]. rewrite HI. cbn [bind]. rewrite En. cbn [bind]. rewrite Et. reflexivity.
  - apply lines_short. replace (lit "# [File generated by the OpenScop Library " ++ release ++ ln (lit "]") ++ t)
      with (((lit "# [File generated by the OpenScop Library " ++ release ++ lit "]") ++ [c_nl]) ++ t) by (unfold ln; rewrite <- !app_assoc; reflexivity).
    apply lines_app; [|assumption]. apply lines_one; [apply no_nlb_ok; reflexivity|vm_compute; discriminate].
Qed.
Print Assumptions C53_prints.

(** ... and the file reads back. *)
Theorem C53_total_roundtrip : forall (cfg : config) env p m l, config_ok cfg -> supported cfg p -> osl_util_get_precision env = p -> 16 <= m ->
  Forall (scop_ok cfg p default_registry) l -> Forall c_sizes l -> Forall coherent_scop l -> Forall (scop_fits m) l ->
  exists text, osl_scop_print l = Ok text /\ osl_scop_read env (File text false) = Ok (map reread_scop l, File [] true).
Proof.
  intros cfg env p m l Hc Hp He Hm Hok Hsz Hco Hf. destruct (C53_prints cfg p m l Hc Hp Hm Hok Hsz Hco Hf) as (text & Et & Hs).
  exists text. split; [assumption|]. unfold osl_scop_read. rewrite He. now apply (C35_scop_roundtrip cfg).
Qed.
Print Assumptions C53_total_roundtrip.

(** ** Names *)
Lemma occurs_here (t : str) : occurs t t.
Proof. exists [], []. now rewrite app_nil_r. Qed.
Lemma occurs_l t a b : occurs t a -> occurs t (a ++ b).
Proof. intros (x & y & ->). exists x, (y ++ b). now rewrite <- !app_assoc. Qed.
Lemma occurs_r t a b : occurs t b -> occurs t (a ++ b).
Proof. intros (x & y & ->). exists (a ++ x), y. now rewrite <- !app_assoc. Qed.
Lemma occurs_c t c b : occurs t b -> occurs t (c :: b).
Proof. apply (occurs_r t [c]). Qed.
Lemma shown_more {cfg : config} P I S L A t text u : (forall x, occurs x t -> occurs x text) -> shown_with P I S L A t u -> shown_with P I S L A text u.
Proof. intros H (n & x & E1 & E2 & E3 & E4 & E5 & E & Ho). exists n, x. repeat (split; [assumption|]). auto. Qed.

Section N.
Context {cfg : config}.
Lemma params_shown n s n' g : with_parameters n (sc_params s) = Ok n' -> elems (n_params n) = g ->
  parameters_shown s g (elems (n_params n')) /\ n_iters n' = n_iters n /\ n_scatt n' = n_scatt n /\ n_locals n' = n_locals n /\ n_arrays n' = n_arrays n.
Proof.
  intros E Hg. unfold with_parameters in E. destruct (sc_params s) as [|x rest] eqn:Es.
  { apply Ok_inj in E. subst n'. repeat split; auto. intros; congruence. }
  destruct (has_uri x (uri_of KStrings)) eqn:Hu.
  - destruct (g_data x) as [d|] eqn:Hd; [|discriminate]. destruct d; try discriminate. apply Ok_inj in E. subst n'. cbn [n_params n_iters n_scatt n_locals n_arrays].
    repeat split; auto.
    + intros k names rest' E'. rewrite Es in E'. assert (x = Generic (Some (Iface (Some (lit "strings")) k)) (Some (DStrings names))) as -> by congruence.
      cbn [g_data] in Hd. congruence.
    + intros H. exfalso. destruct x as [[[[u|] k]|] d]; unfold has_uri in Hu; cbn [g_uri g_iface if_uri] in Hu; try discriminate.
      apply str_eqb_eq in Hu. subst u. apply (H k d rest). rewrite Es. reflexivity.
  - apply Ok_inj in E. subst n'. repeat split; auto. intros k names rest' E'. exfalso. rewrite Es in E'.
    assert (x = Generic (Some (Iface (Some (lit "strings")) k)) (Some (DStrings names))) as -> by congruence.
    unfold has_uri in Hu. cbn [g_uri g_iface if_uri] in Hu. change (uri_of KStrings) with (lit "strings") in Hu. rewrite str_eqb_refl in Hu. discriminate.
Qed.
Lemma to_strings_shown a o : osl_arrays_to_strings (Some a) = Ok (Some o) ->
  (forall id name pre post, a = pre ++ (id, name) :: post -> ~ In id (map fst post) -> nth_error (elems o) (Z.to_nat (id - 1)) = Some name) /\
  (forall k, 1 <= k -> ~ In k (map fst a) -> (exists x, In x a /\ k <= fst x) -> nth_error (elems o) (Z.to_nat (k - 1)) = Some (lit "Dummy" ++ print_Z k)).
Proof.
  intros E. unfold osl_arrays_to_strings in E. inv_bind E. destruct a as [|x0 a0].
  { split; [intros id name pre post X; destruct pre; discriminate|]. intros k _ _ (x & [] & _). }
  set (a := x0 :: a0) in *. destruct v as [lg|]; [|discriminate]. cbv beta iota in E. unfold a at 1 in E. inv_bind E. apply Ok_inj in E. apply Some_eq in E. subst o. cbn [elems]. split.
  - intros id name pre post Ea Hn. now apply (put_names_last _ _ _ E1 pre id name post).
  - intros k Hk Hn (x & Hx & Hle). rewrite (put_names_keep _ _ _ _ E1 Hk Hn).
    destruct (max_id_spec a ltac:(discriminate)) as [_ Hmax]. specialize (Hmax x Hx).
    destruct (C29_generate (lit "Dummy") (max_id a) ltac:(lia)) as (g & Eg & _ & Hnth & _). rewrite E0 in Eg. apply Ok_inj in Eg. subst g. apply Hnth. lia.
Qed.
Lemma arrays_are_shown n s n' g : with_arrays n (sc_ext s) = Ok n' -> elems (n_arrays n) = g ->
  arrays_shown s g (elems (n_arrays n')) /\ n_iters n' = n_iters n /\ n_scatt n' = n_scatt n /\ n_locals n' = n_locals n /\ n_params n' = n_params n.
Proof.
  intros E Hg. unfold with_arrays in E. destruct (osl_generic_lookup (sc_ext s) (uri_of KArrays)) as [d|] eqn:L.
  - destruct d; try discriminate. inv_bind E. destruct v as [o|]; [|discriminate]. apply Ok_inj in E. subst n'. cbn [n_params n_iters n_scatt n_locals n_arrays].
    destruct (to_strings_shown _ _ E0) as [H1 H2]. apply lookup_carries in L. repeat split; auto.
    + intros b id name pre post Hb. apply carries_lookup in Hb. apply carries_lookup in L. assert (b = a) as -> by (change (uri_of KArrays) with (lit "arrays") in L; rewrite L in Hb; congruence). apply H1.
    + intros b k Hb. apply carries_lookup in Hb. apply carries_lookup in L. assert (b = a) as -> by (change (uri_of KArrays) with (lit "arrays") in L; rewrite L in Hb; congruence). apply H2.
    + intros H. exfalso. apply (H _ L).
  - apply Ok_inj in E. subst n'. repeat split; auto.
    + intros b id name pre post Hb. apply carries_lookup in Hb. change (uri_of KArrays) with (lit "arrays") in L. congruence.
    + intros b k Hb. apply carries_lookup in Hb. change (uri_of KArrays) with (lit "arrays") in L. congruence.
Qed.
Lemma iters_shown n st b g : body_of (st_ext st) = Ok b -> elems (n_iters n) = g -> iterators_shown st g (elems (n_iters (with_iterators n b))).
Proof.
  intros E Hg. split.
  - intros names e Hc. rewrite (body_of_carries _ _ Hc) in E. apply Ok_inj in E. subst b. reflexivity.
  - intros H. destruct b as [[[names|] e]|]; try exact Hg. exfalso. apply (H names e). unfold body_of in E.
    destruct (osl_generic_lookup (st_ext st) (uri_of KBody)) as [d|] eqn:L; [|discriminate]. destruct d; try discriminate. apply lookup_carries in L.
    apply Ok_inj in E. apply Some_inj in E. subst. exact L.
Qed.
Lemma elts_shown n l t : print_elts l (Some n) = Ok t -> Forall (fun u => exists x, osl_relation_spprint u (Some n) = Ok x /\ occurs x t) l.
Proof.
  revert t. induction l as [|u l IH]; intros t E; [constructor|]. cbn [print_elts] in E. destruct u as [|r u].
  - cbn [bind] in E. inv_bind E. apply Ok_inj in E. subst t. cbn [app]. constructor; [exists []; split; [reflexivity|]; exists [], v; reflexivity|]. now apply IH.
  - inv_bind E. inv_bind E. inv_bind E0. apply Ok_inj in E0. subst v. apply Ok_inj in E. subst t. constructor.
    + exists v1. split; [assumption|]. apply occurs_l, occurs_l, occurs_here.
    + specialize (IH _ E1). revert IH. apply Forall_impl. intros y (x & Ex & Ho). exists x. split; [assumption|]. now apply occurs_r.
Qed.
Lemma list_shown n l t : osl_relation_list_pprint_elts l (Some n) = Ok t -> Forall (fun u => exists x, osl_relation_spprint u (Some n) = Ok x /\ occurs x t) l.
Proof.
  unfold osl_relation_list_pprint_elts. destruct (0 <? _) eqn:C; [apply elts_shown|]. intros E. apply Forall_forall. intros u Hu.
  destruct u as [|r u]; [exists []; split; [reflexivity|]; exists [], t; reflexivity|]. exfalso.
  assert (In (r :: u) (filter (fun u => match u with [] => false | _ => true end) l)) as X by (apply filter_In; auto).
  unfold osl_relation_list_count in C. destruct (filter _ l); [destruct X|]. rewrite zlength_cons in C. match type of C with context [zlength ?q] => pose proof (zlength_nonneg q) end. lia.
Qed.
Lemma statement_shown number st n text g : statement_pprint_one number st n = Ok text -> elems (n_iters n) = g ->
  exists I, iterators_shown st g I /\
    Forall (shown_with (elems (n_params n)) I (elems (n_scatt n)) (elems (n_locals n)) (elems (n_arrays n)) text) (relations_of_statement st).
Proof.
  intros E Hg. unfold statement_pprint_one in E. inv_bind E. rename v into b, E0 into Eb. pose proof (iters_shown n st b g Eb Hg) as HI.
  assert (Hk : n_params (with_iterators n b) = n_params n /\ n_scatt (with_iterators n b) = n_scatt n /\ n_locals (with_iterators n b) = n_locals n /\ n_arrays (with_iterators n b) = n_arrays n).
  { destruct b as [[[names|] e]|]; auto. }
  exists (elems (n_iters (with_iterators n b))). split; [assumption|]. set (n' := with_iterators n b) in *. clearbody n'. destruct Hk as (K1 & K2 & K3 & K4).
  inv_bind E. rename v into td. inv_bind E. rename v into tc. inv_bind E. rename v into ta. inv_bind E. apply Ok_inj in E.
  assert (S : forall u x, osl_relation_spprint u (Some n') = Ok x -> occurs x text -> shown_with (elems (n_params n)) (elems (n_iters n')) (elems (n_scatt n)) (elems (n_locals n)) (elems (n_arrays n)) text u).
  { intros u x Ex Ho. exists n', x. rewrite K1, K2, K3, K4. auto 10. }
  constructor; [|constructor].
  - apply (S _ td); [assumption|]. subst text. do 5 apply occurs_r. apply occurs_l, occurs_here.
  - apply (S _ tc); [assumption|]. subst text. do 8 apply occurs_r. apply occurs_l, occurs_here.
  - pose proof (list_shown _ _ _ E2) as X. revert X. apply Forall_impl. intros u (x & Ex & Ho). apply (S _ x); [assumption|]. subst text. do 11 apply occurs_r. now apply occurs_l.
Qed.
Lemma statements_shown n g : elems (n_iters n) = g -> forall l number text, statements_pprint number l n = Ok text ->
  Forall (fun st => exists I, iterators_shown st g I /\
    Forall (shown_with (elems (n_params n)) I (elems (n_scatt n)) (elems (n_locals n)) (elems (n_arrays n)) text) (relations_of_statement st)) l.
Proof.
  intros Hg. induction l as [|st l IH]; intros number text E; [constructor|]. cbn [statements_pprint] in E. inv_bind E. inv_bind E. apply Ok_inj in E. subst text. constructor.
  - destruct (statement_shown number st n v g E0 Hg) as (I & HI & HF). exists I. split; [assumption|]. revert HF. apply Forall_impl. intros u. apply shown_more. intros x. apply occurs_l.
  - specialize (IH _ _ E1). revert IH. apply Forall_impl. intros y (I & HI & HF). exists I. split; [assumption|]. revert HF. apply Forall_impl. intros u. apply shown_more. intros x. apply occurs_r.
Qed.
End N.

(** Every relation of a printed scop is printed with the names that the scop gives to parameters, iterators and arrays, and with generated
    names for everything else. *)
Theorem C53_names : forall (cfg : config) l text, l <> [] -> osl_scop_print l = Ok text ->
  exists a : attrs, (forall w, maximum_of (relations_of_scops l) w (-1) (attribute_in w a)) /\
  Forall (fun s => exists P A,
    parameters_shown s (generated_names (lit "P") (a_par a)) P /\ arrays_shown s (generated_names (lit "A") (a_id a)) A /\
    let S := generated_names (lit "c") (a_scat a) in let L := generated_names (lit "l") (a_loc a) in let I0 := generated_names (lit "i") (a_iter a) in
    shown_with P I0 S L A text (sc_context s) /\
    Forall (fun st => exists I, iterators_shown st I0 I /\ Forall (shown_with P I S L A text) (relations_of_statement st)) (sc_stmts s)) l.
Proof.
  intros cfg l text Hne E. unfold osl_scop_print in E. destruct l as [|s0 l0]; [congruence|]. set (l := s0 :: l0) in *. clearbody l. clear Hne.
  inv_bind E. inv_bind E. rename v0 into n. inv_bind E. rename v0 into t. apply Ok_inj in E. unfold osl_scop_names in E1. inv_bind E1. rename v0 into a. exists a. split.
  { intros w. pose proof (C19_scop_attributes cfg l undefined_attrs a w E3) as X. destruct w; exact X. }
  unfold names_of, osl_names_generate in E1. inv_bind E1. inv_bind E1. inv_bind E1. inv_bind E1. inv_bind E1. apply Ok_inj in E1.
  apply generate_elems in E4, E5, E6, E7, E8. destruct E4 as [_ G1], E5 as [_ G2], E6 as [_ G3], E7 as [_ G4], E8 as [_ G5].
  assert (HO : forall x, occurs x t -> occurs x text) by (intros x Hx; subst text; do 3 apply occurs_r; exact Hx).
  clear E E0 E3. revert t E2 HO. induction l as [|s l IH]; intros t E2 HO; [constructor|]. cbn [print_all] in E2. inv_bind E2. rename v5 into t1, E into Es. inv_bind E2. rename v5 into t2, E into El.
  apply Ok_inj in E2. subst t. constructor; [|apply (IH t2 El); intros x Hx; now apply HO, occurs_r].
  assert (HO1 : forall x, occurs x t1 -> occurs x text) by (intros x Hx; now apply HO, occurs_l). clear HO IH El.
  unfold scop_print_one in Es. inv_bind Es. rename v5 into n1, E into En1. inv_bind Es. rename v5 into n2, E into En2.
  subst n. destruct (params_shown _ s n1 _ En1 G1) as (HP & P2 & P3 & P4 & P5). cbn [n_iters n_scatt n_locals n_arrays] in *. rewrite <- P5 in G5.
  destruct (arrays_are_shown n1 s n2 _ En2 G5) as (HA & A2 & A3 & A4 & A5).
  exists (elems (n_params n2)), (elems (n_arrays n2)). split; [rewrite A5; exact HP|]. split; [exact HA|].
  inv_bind Es. rename v5 into tc, E into Ec. inv_bind Es. rename v5 into tp, E into Ep. inv_bind Es. rename v5 into ts, E into Ets. inv_bind Es. apply Ok_inj in Es.
  assert (S1 : elems (n_scatt n2) = generated_names (lit "c") (a_scat a)) by (rewrite A3, P3; exact G3).
  assert (S2 : elems (n_locals n2) = generated_names (lit "l") (a_loc a)) by (rewrite A4, P4; exact G4).
  assert (S3 : elems (n_iters n2) = generated_names (lit "i") (a_iter a)) by (rewrite A2, P2; exact G2).
  cbv zeta. rewrite <- S1, <- S2, <- S3. split.
  - exists n2, tc. repeat (split; [reflexivity|]). split; [assumption|]. apply HO1. subst t1. apply occurs_c. do 7 apply occurs_r. apply occurs_l, occurs_here.
  - unfold osl_statement_pprint in Ets. cbn [bind] in Ets. pose proof (statements_shown n2 _ eq_refl _ _ _ Ets) as X.
    revert X. apply Forall_impl. intros y (I & HI & HF). exists I. split; [assumption|]. revert HF. apply Forall_impl. intros u. apply shown_more. intros x Hx. apply HO1.
    subst t1. apply occurs_c. do 11 apply occurs_r. apply occurs_c. do 3 apply occurs_r. now apply occurs_l.
Qed.
Print Assumptions C53_names.

(** ** A witness: two scops with parameter names, array names (in decreasing order), symbols, a comment and a body *)
Lemma forall_rows_lit l : forallb (forallb (fun v => (- 2 ^ 31 <? v) && (v <=? 2 ^ 31 - 1))) l = true -> Forall (Forall (fun v => - 2 ^ 31 < v <= 2 ^ 31 - 1)) l.
Proof.
  intros H. apply Forall_forall. intros r Hr. rewrite forallb_forall in H. specialize (H r Hr). apply Forall_forall. intros v Hv. rewrite forallb_forall in H. specialize (H v Hv). lia.
Qed.
Ltac fits_lit := split; [unfold coherent_dims, access_type; cbn [rtype nout nin nloc npar ncols];
    unfold TYPE_CONTEXT, TYPE_DOMAIN, TYPE_SCATTERING, TYPE_ACCESS, TYPE_READ, TYPE_WRITE, TYPE_MAY_WRITE; lia
  |split; [apply forall_rows_lit; vm_compute; reflexivity|cbn [ncols]; lia]].
Example C53_witness_fits : Forall (scop_fits 16 (cfg := lp64_debug)) [wr_scop; ex_scop] /\ Forall coherent_scop [wr_scop; ex_scop] /\ Forall c_sizes [wr_scop; ex_scop].
Proof.
  assert (W : Forall (wf_union lp64_debug) (relations_of_scops [wr_scop; ex_scop])).
  { destruct C36_witness_hypotheses as [W _]. change (relations_of_scops [ex_scop]) with (relations_of_scop ex_scop ++ []) in W. rewrite app_nil_r in W.
    change (relations_of_scops [wr_scop; ex_scop]) with (relations_of_scop ex_scop ++ relations_of_scop ex_scop ++ []). rewrite app_nil_r. apply Forall_app. now split. }
  assert (S : Forall c_sizes [wr_scop; ex_scop]).
  { destruct C36_witness_hypotheses as [_ [S _]]. constructor; [exact S|constructor; [exact S|constructor]]. }
  split; [|split; [|exact S]].
  2:{ apply (C36_integrity_sound lp64_debug); try assumption; [now right|reflexivity|vm_compute; reflexivity]. }
  assert (U : Forall (union_fits 16) (relations_of_scop ex_scop)).
  { assert (F1 : relation_fits 16 ex_context) by (unfold ex_context; fits_lit). assert (F2 : relation_fits 16 ex_domain) by (unfold ex_domain; fits_lit).
    assert (F3 : relation_fits 16 ex_scattering) by (unfold ex_scattering; fits_lit). assert (F4 : relation_fits 16 ex_scattering3) by (unfold ex_scattering3; fits_lit).
    assert (F5 : relation_fits 16 ex_read) by (unfold ex_read; fits_lit).
    assert (L1 : forall r, relation_fits 16 r -> union_fits 16 [r]) by (intros r Hr; split; [vm_compute; reflexivity|constructor; [assumption|constructor]]).
    assert (L2 : forall r, relation_fits 16 r -> union_fits 16 [r; r]) by (intros r Hr; split; [vm_compute; reflexivity|constructor; [assumption|constructor; [assumption|constructor]]]).
    change (relations_of_scop ex_scop) with [[ex_context]; [ex_domain]; [ex_scattering]; [ex_read]; [ex_domain; ex_domain]; [ex_scattering3]; [ex_read]; [ex_read; ex_read]].
    repeat (apply Forall_cons; [solve [auto]|]). apply Forall_nil. }
  assert (X : forall g, generic_fits 16 g -> match @osl_generic_sprint lp64_debug [g] with Ok t => shortb 2046 t = true | _ => False end -> extension_fits 16 (cfg := lp64_debug) g).
  { intros g H1 H2. split; [assumption|]. intros t Et. rewrite Et in H2. now apply shortb_ok. }
  assert (A : forall n, fixes_array ex_read n -> n = 2).
  { intros n Hn. assert (E : @osl_relation_get_array_id lp64_debug [ex_read] = Ok n).
    { apply C18_array_id_complete; [now right| | |cbn; unfold access_type; cbn; tauto|constructor; [assumption|constructor]].
      - constructor; [|constructor]. unfold ex_read. unfold wf_rel. cbn [rtype rprec nrows ncols rm]. LoopLemmas.wf_lit.
      - constructor; [|constructor]. apply forall_rows_lit. vm_compute. reflexivity. }
    assert (E2 : @osl_relation_get_array_id lp64_debug [ex_read] = Ok 2) by (vm_compute; reflexivity). rewrite E in E2. now apply Ok_inj in E2. }
  assert (I : Forall (iterators_named 16) ex_statements).
  { unfold ex_statements. constructor; [|constructor; [|constructor]]; intros names e Hc; apply carries_lookup in Hc.
    - assert (names = Some [lit "i"]) as -> by (assert (X2 : osl_generic_lookup [ex_ext] (lit "body") = Some (DBody (Body (Some (Some [lit "i"])) (Some (Some [lit "S(i) = A[i];"]))))) by (vm_compute; reflexivity); cbn [st_ext] in Hc; rewrite X2 in Hc; congruence). cbn [elems]. split; [constructor; [vm_compute; discriminate|constructor]|].
      cbn. repeat constructor; vm_compute; discriminate.
    - discriminate. }
  assert (E0 : Forall (fun st => Forall (extension_fits 16 (cfg := lp64_debug)) (st_ext st)) ex_statements).
  { unfold ex_statements. constructor; [|constructor; [constructor|constructor]]. constructor; [|constructor]. apply X; [exact Logic.I|vm_compute; reflexivity]. }
  constructor; [|constructor; [|constructor]].
  - split; [exact U|]. split; [|split; [exact I|split; [|split; [|split; [exact E0|]]]]].
    + intros i names rest E. assert (names = Some [lit "N"]) as -> by (cbn [sc_params wr_scop] in E; unfold wr_names in E; congruence). cbn [elems]. split; [constructor; [vm_compute; discriminate|constructor]|vm_compute; discriminate].
    + intros a Ha. apply carries_lookup in Ha. assert (a = [(2, lit "A"); (1, lit "b")]) as -> by (assert (X2 : osl_generic_lookup wr_ext (lit "arrays") = Some (DArrays [(2, lit "A"); (1, lit "b")])) by (vm_compute; reflexivity); cbn [sc_ext wr_scop] in Ha; rewrite X2 in Ha; congruence). split; [constructor; [cbn [fst snd]; split; [lia|vm_compute; discriminate]|constructor; [cbn [fst snd]; split; [lia|vm_compute; discriminate]|constructor]]|].
      assert (R : forall n, fixes_array ex_read n -> exists x, In x [(2, lit "A"); (1, lit "b")] /\ n <= fst x).
      { intros n Hn. apply A in Hn. subst n. exists (2, lit "A"). split; [now left|cbn; lia]. }
      cbn. repeat (constructor; [repeat (constructor; [repeat (constructor; [exact R|]); constructor|]); constructor|]). constructor.
    + constructor; [|constructor]. apply X; [exact Logic.I|vm_compute; reflexivity].
    + constructor; [|constructor; [|constructor; [|constructor]]]; (apply X; [|vm_compute; reflexivity]).
      * exact Logic.I.
      * exact Logic.I.
      * assert (D : generic_fits 16 (Generic (Some (osl_interface_of KRelation)) (Some (DRelation [ex_domain])))).
        { change (alone_fits 16 [ex_domain]). split; [split; [vm_compute; reflexivity|constructor; [unfold ex_domain; fits_lit|constructor]]|].
          intros Y. apply Forall_inv in Y. unfold access_type in Y. cbn in Y. unfold TYPE_DOMAIN, TYPE_ACCESS, TYPE_READ, TYPE_WRITE, TYPE_MAY_WRITE in Y. lia. }
        assert (Sy : symbol_fits 16 wr_symbol).
        { change ((True /\ True) /\ (True /\ True) /\ (generic_fits 16 (Generic (Some (osl_interface_of KRelation)) (Some (DRelation [ex_domain]))) /\ True) /\ (True /\ True)). tauto. }
        change (symbol_fits 16 wr_symbol /\ symbol_fits 16 wr_symbol /\ True). tauto.
  - split; [exact U|]. split; [|split; [exact I|split; [|split; [constructor|split; [exact E0|constructor]]]]].
    + intros i names rest E. discriminate.
    + intros a Ha. apply carries_lookup in Ha. discriminate.
Qed.

Example C53_witness : exists text, @osl_scop_print lp64_debug [wr_scop; ex_scop] = Ok text /\
  @osl_scop_read lp64_debug (Some (lit "64")) (File text false) = Ok (map reread_scop [wr_scop; ex_scop], File [] true).
Proof.
  destruct C53_witness_fits as (F & C & S). destruct C35_scop_ok as [K _].
  apply (C53_total_roundtrip lp64_debug (Some (lit "64")) 64 16); try assumption; [now right|right; now left|vm_compute; reflexivity|lia].
Qed.
(** The access to array 2 of the first scop is shown with the name of that array, the one of the second scop with a generated name; the
    parameter N has its name in the first scop and a generated name in the second. *)
Example C53_names_ex : occurs (lit "## Arr == A" ++ [c_nl]) wr_text /\ occurs (lit "## Arr == A2" ++ [c_nl]) wr_text /\
  occurs (lit "## -i+N-1 >= 0") wr_text /\ occurs (lit "## -i+P1-1 >= 0") wr_text.
Proof.
  assert (G : forall pat s, occursb pat s = true -> occurs pat s).
  { intros pat s. induction s as [|c s IH]; intros H.
    - cbn [occursb] in H. rewrite orb_false_r in H. apply starts_with_spec in H. destruct H as (b & ->). exists [], b. reflexivity.
    - cbn [occursb] in H. apply orb_true_iff in H. destruct H as [H|H]; [apply starts_with_spec in H; destruct H as (b & ->); exists [], b; reflexivity|].
      now apply occurs_c, IH. }
  split; [|split; [|split]]; apply G; vm_compute; reflexivity.
Qed.
