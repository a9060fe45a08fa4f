(** * PropFile: printing relation lists and bodies to files (C56) *)
From Coq Require Import ZifyBool ZifyNat.
From Verif Require Import Base IntModel VectorModel RelationModel UtilModel StringsModel RelTextModel
  Spec RelSpec TextSpec ExprSpec LoopLemmas IntProofs TextInt VectorProofs RelationProofs UtilProofs UtilProofs2 PropUtil RelTextProofs RelTextProofs2 RelTextProofs3 RelTextProofs4
  RelationProofs4 PropStrings PropRelText PropRelation2 PropExpr PropExpr2 ExtModel ExtSpec ExtProofs PropExt PropExt2 PropExt3 ScopModel
  SaveSpec SaveProofs SaveProofs2 SaveProofs3 PrintProofs2 PropVector FileModel.

(** ** Lists of relations *)
Section L.
Context {cfg : config}.
Hypothesis Hcfg : config_ok cfg.
Variable env : option str.
Variable k : Z.
Hypothesis Hk : 1 <= k.
Notation p := (osl_util_get_precision env).

(** A union the library prints (C20): parts of one printable type in the precision of the environment,
    coherent dimensions, coefficients of at most [k] characters and rows within a line; the parts of an
    access fix the same array. *)
Definition shown_union (u : list relation) : Prop :=
  zlength u < 2 ^ 31 - 1 /\ exists t, printable_type t /\ Forall (printable cfg k 12) u /\
  Forall (fun r => rtype r = t /\ rprec r = p) u /\ arrays_known u (2 ^ 31 - 1).

Lemma sprint_lines u : u <> [] -> shown_union u -> exists text, osl_relation_spprint u None = Ok text /\ lines text.
Proof.
  intros Hne (Hlen & t & Hty & Hp & Ht & Ha).
  assert (Ht' : Forall (fun r => rtype r = t) u) by (revert Ht; apply Forall_impl; now intros r (? & _)).
  destruct (names_total cfg k 12 t u Hcfg Hne Hk ltac:(lia) Hp Ht' Ha) as (n & En & Hen & Hs & Harr).
  assert (Hall : forall r r', In r u -> In r' u -> access_type (rtype r) -> access_type (rtype r')).
  { rewrite Forall_forall in Ht'. intros r r' H1 H2. rewrite (Ht' r H1), (Ht' r' H2). auto. }
  assert (W : wf_union cfg u) by (revert Hp; apply Forall_impl; intros r (W & _); exact W).
  assert (HB : k + 12 + 3 < 2048).
  { destruct u; [congruence|]. apply Forall_inv in Hp. destruct Hp as (W' & (Ho & Hi & Hl & Hpp & Hc & _) & _ & _ & Hw). nia. }
  destruct (spprint_total Hcfg k 12 Hk ltac:(lia) HB ltac:(lia) u n Hne Hs (relation_names_good u n En)) as (text & Et & Hl); [|assumption|].
  - intros pre r post E. assert (Hin : In r u) by (rewrite E; apply in_or_app; right; now left).
    rewrite Forall_forall in Hp, Hen. specialize (Hp r Hin). specialize (Hen r Hin).
    split; [apply Hp|]. split; [apply (printable_dims cfg k 12); [lia|lia|assumption]|]. split; [now apply (printable_coefs cfg k 12)|].
    split; [apply Hp|]. split; [assumption|]. split; [apply Hp|].
    intros Hacc. eapply access_id; eauto.
  - exists text. split; [|assumption]. rewrite <- Et. unfold osl_relation_spprint, osl_relation_spprint_polylib.
    destruct u; [congruence|]. destruct (0 <? _); [|reflexivity]. now rewrite En.
Qed.

(** The elements that are not NULL. *)
Definition elements (l : list (list relation)) : list (list relation) := filter (fun u => match u with [] => false | _ => true end) l.
(** What is left in front of the cursor: one newline if the last node has no element. *)
Definition left_over (l : list (list relation)) : str := match last l [] with [] => [c_nl] | _ => [] end.

Lemma print_elts_ok l : Forall (fun u => u = [] \/ shown_union u) l -> exists text, print_elts l None = Ok text /\ lines text.
Proof.
  induction 1 as [|u l Hu Hl (t & Et & Ht)]; [exists []; split; [reflexivity|constructor]|]. cbn [print_elts].
  destruct u as [|r u].
  - rewrite Et. exists t. split; [reflexivity|assumption].
  - destruct (sprint_lines (r :: u)) as (t1 & E1 & H1); [discriminate|destruct Hu; [discriminate|assumption]|].
    rewrite E1. cbn [bind]. rewrite Et. cbn [bind]. eexists. split; [reflexivity|]. apply lines_app; [apply lines_app; [assumption|]|assumption].
    destruct l; [constructor|apply lines_nl].
Qed.
Lemma sprint_reads u text rest e b : u <> [] -> shown_union u -> osl_relation_spprint u None = Ok text -> lines text ->
  blank_lines b -> short_lines b -> osl_relation_pread (File (b ++ text ++ rest) e) p = Ok (u, File rest e).
Proof.
  intros Hne (Hlen & t & Hty & Hp & Ht & Ha) E Hl Hb Hs. apply file_relation; [assumption|assumption|].
  apply (C20_print_read cfg env t u); try assumption; [lia| |now apply lines_short].
  rewrite Forall_forall in *. intros r Hin. destruct (Ht r Hin) as [H1 H2]. pose proof (Hp r Hin) as Hr.
  split; [apply Hr|]. split; [assumption|]. split; [assumption|]. apply (printable_dims cfg k 12 r Hk ltac:(lia) Hr).
Qed.
Lemma elements_none l : elements l = [] -> forall text, print_elts l None = Ok text -> text = [].
Proof.
  induction l as [|u l IH]; intros E text H; cbn [print_elts] in H; [now apply Ok_inj in H|].
  destruct u; [|discriminate]. cbn [bind] in H. inv_bind H. apply Ok_inj in H. subst text. rewrite (IH E _ E0). reflexivity.
Qed.
Lemma elements_last l : elements l = [] -> forall d, last (d :: l) [] = match l with [] => d | _ => [] end.
Proof.
  induction l as [|u l IH]; intros E d; [reflexivity|]. destruct u; [|discriminate].
  change (last (d :: [] :: l) []) with (last ([] :: l) (@nil relation)). rewrite (IH E). now destruct l.
Qed.
Lemma read_elts l : Forall (fun u => u = [] \/ shown_union u) l -> elements l <> [] -> forall text, print_elts l None = Ok text ->
  forall b rest e, blank_lines b -> short_lines b ->
  read_relations (List.length (elements l)) (File (b ++ text ++ rest) e) p = Ok (elements l, File (left_over l ++ rest) e).
Proof.
  induction 1 as [|u l Hu Hl IH]; intros Hne text E b rest e Hb Hs; [now destruct Hne|]. cbn [print_elts] in E.
  destruct u as [|r u].
  - cbn [bind] in E. inv_bind E. apply Ok_inj in E. subst text. change (elements ([] :: l)) with (elements l) in *.
    cbn [app]. rewrite (IH Hne _ E0 b rest e Hb Hs). unfold left_over. destruct l; [now destruct Hne|reflexivity].
  - inv_bind E. inv_bind E. apply Ok_inj in E. subst text. inv_bind E0. apply Ok_inj in E0. subst v.
    destruct Hu as [Hu|Hu]; [discriminate|]. change (elements ((r :: u) :: l)) with ((r :: u) :: elements l).
    assert (Hlt : lines v1) by (destruct (sprint_lines (r :: u)) as (t1 & E1' & H1); [discriminate|assumption|congruence]).
    cbn [List.length read_relations]. rewrite <- !app_assoc.
    rewrite (sprint_reads (r :: u) v1 _ e b); [|discriminate|assumption|assumption|assumption|assumption|assumption]. cbn [bind].
    destruct (elements l) as [|x xs] eqn:El.
    + rewrite (elements_none l El _ E1). cbn [List.length read_relations bind app]. unfold left_over. rewrite (elements_last l El).
      destruct l; reflexivity.
    + assert (Hx : x :: xs <> []) by discriminate. destruct l as [|u2 l]; [discriminate|].
      rewrite (IH Hx _ E1 [c_nl] rest e); [cbn [bind]; reflexivity|apply bl_nl|]. apply lines_short, lines_nl.
Qed.
End L.

(** Printing a list of relations to a file and reading it back gives the same relations, in the same order;
    nodes without a relation disappear. *)
Theorem C56_list_roundtrip : forall (cfg : config) env k l rest e, config_ok cfg -> 1 <= k ->
  Forall (fun u => u = [] \/ shown_union env k u) l -> elements l <> [] -> zlength (elements l) <= 2 ^ 31 - 1 ->
  exists text, osl_relation_list_print l = Ok text /\
    osl_relation_list_read env (File (text ++ rest) e) = Ok (elements l, File (left_over l ++ rest) e).
Proof.
  intros cfg env k l rest e Hcfg Hk Hl Hne Hn. unfold osl_relation_list_print, osl_relation_list_pprint, osl_relation_list_pprint_elts.
  change (osl_relation_list_count l) with (zlength (elements l)).
  assert (Hpos : 0 < zlength (elements l)) by (destruct (elements l) as [|x y]; [congruence|rewrite zlength_cons; pose proof (zlength_nonneg y); lia]).
  destruct (Z.ltb_spec 0 (zlength (elements l))); [|lia].
  destruct (print_elts_ok Hcfg env k Hk l Hl) as (t & Et & Ht). rewrite Et. cbn [bind]. eexists. split; [reflexivity|].
  unfold osl_relation_list_read, osl_relation_list_pread.
  assert (Hc : c_int (zlength (elements l))) by (unfold c_int; lia).
  assert (Hw : no_nl (lit " List of " ++ print_Z (zlength (elements l)) ++ (if 1 <? zlength (elements l) then lit " elements" else lit " element "))).
  { apply no_nl_app; split; [apply no_nlb_ok; reflexivity|]. apply no_nl_app; split; [apply print_Z_no_nl|destruct (1 <? _); apply no_nlb_ok; reflexivity]. }
  match goal with |- context [File ((?h ++ t) ++ rest) e] => replace ((h ++ t) ++ rest) with
     (ln (c_hash :: (lit " List of " ++ print_Z (zlength (elements l)) ++ (if 1 <? zlength (elements l) then lit " elements" else lit " element "))) ++
      lnZ (zlength (elements l)) ++ t ++ rest) end.
  2:{ destruct (1 <? zlength (elements l)); cbn [lit list_ascii_of_string app]; unfold ln; rewrite <- !app_assoc; cbn [app]; rewrite <- ?app_assoc; reflexivity. }
  rewrite file_int; [|apply bl_comment|apply lines_short, lines_ln|assumption].
  4:{ rewrite zlength_cons, !zlength_app. pose proof (print_int_length (zlength (elements l)) Hc). change (zlength (lit " List of ")) with 9.
      destruct (1 <? _); [change (zlength (lit " elements")) with 9|change (zlength (lit " element ")) with 9]; unfold str in *; lia. }
  2: exact Hw.
  2: exact (no_nl_cons c_hash _ eq_refl Hw).
  cbn [bind]. destruct (Z.ltb_spec (zlength (elements l)) 0); [lia|]. destruct (Z.eqb_spec (zlength (elements l)) 0); [lia|].
  unfold zlength at 1. rewrite Nat2Z.id.
  exact (read_elts Hcfg env k Hk l Hl Hne t Et [] rest e bl_nil ltac:(apply lines_short; constructor)).
Qed.
Print Assumptions C56_list_roundtrip.

(** Two accesses and a NULL element: the list read back has the two accesses. *)
Definition ex_list : list (list relation) := [ex_access; []; [mkrel TYPE_WRITE 64 1 5 1 1 0 1 [[0;-1;0;0;7]]]; []].
Example C56_hyp : Forall (fun u => u = [] \/ @shown_union lp64_debug (Some (lit "64")) 3 u) ex_list /\ elements ex_list <> [] /\
  zlength (elements ex_list) <= 2 ^ 31 - 1 /\ left_over ex_list = [c_nl] /\ zlength (elements ex_list) = 2.
Proof.
  split; [|split; [discriminate|split; [cbn; lia|split; reflexivity]]].
  constructor; [|constructor; [now left|constructor; [|constructor; [now left|constructor]]]].
  - right. destruct C20_ex_printable as (H1 & H2 & H3 & H4 & H5). split; [exact H5|]. exists TYPE_READ. auto.
  - right. split; [cbn; lia|]. exists TYPE_WRITE. split; [cbn; tauto|]. split; [|split].
    + constructor; [|constructor]. split; [|split; [|split; [|split]]].
      * unfold wf_rel. cbn [rtype rprec nrows ncols rm]. LoopLemmas.wf_lit; cbn; try lia.
      * unfold coherent_dims. cbn. unfold TYPE_CONTEXT, TYPE_DOMAIN, TYPE_WRITE, access_type. repeat split; intros; try lia.
      * unfold short_coefficients. cbn [rm rprec]. repeat (apply Forall_cons || apply Forall_nil || split); try lia;
          unfold representable; cbn; lia.
      * cbn; lia.
      * cbn; lia.
    + constructor; [split; reflexivity|constructor].
    + intros _. exists 7. split; [lia|]. split.
      * constructor; [|constructor]. split; [lia|]. exists [], [], (-1), 7. repeat split; try lia. constructor.
      * cbn [rows]. constructor; [|constructor]. cbn. repeat (apply Forall_cons || apply Forall_nil); lia.
Qed.
Example C56_ex : match @osl_relation_list_print lp64_debug ex_list with
  | Ok text => firstn 24 text = lit "# List of 2 elements" ++ [c_nl] ++ lit "2" ++ [c_nl] ++ lit "R" /\
      @osl_relation_list_read lp64_debug (Some (lit "64")) (File text false) = Ok (elements ex_list, File [c_nl] false)
  | _ => False end.
Proof. vm_compute. split; reflexivity. Qed.

(** A NULL list and a list without any relation print the same text, and that text is read back as one node
    without relation: the NULL list is not read back. *)
Theorem C56_empty_list_refuted : forall (cfg : config) env rest e, exists text,
  osl_relation_list_print [] = Ok text /\ osl_relation_list_print [[]] = Ok text /\
  (exists f, osl_relation_list_read env (File (text ++ rest) e) = Ok ([[]], f)) /\
  osl_relation_list_equal [] [[]] = Ok false.
Proof.
  intros cfg env rest e. eexists. split; [reflexivity|]. split; [reflexivity|]. split; [|reflexivity].
  unfold osl_relation_list_read, osl_relation_list_pread.
  match goal with |- context [File (?x ++ rest) e] => change (x ++ rest) with
    (ln (c_hash :: lit " List of 0 element ") ++ lnZ 0 ++ ln (lit "# NULL relation list") ++ rest) end.
  rewrite file_int; [eexists; reflexivity|apply bl_comment, no_nlb_ok; reflexivity| |unfold c_int; lia].
  apply lines_short, lines_ln; [apply no_nlb_ok; reflexivity|vm_compute; discriminate].
Qed.
Print Assumptions C56_empty_list_refuted.

(** ** Bodies: the text for a file differs from the string of osl_body_sprint, and reads back the same. *)
Theorem C56_body_roundtrip : forall b, body_ok b ->
  roundtrip (t <- osl_body_print (Some b) ;; Ok (Some t)) osl_body_sread b.
Proof.
  intros b (its & e & -> & Hc & Hi & He). unfold osl_body_print, osl_strings_print, osl_strings_sprint.
  cbn [bo_iterators bo_expression osl_strings_size elems sprint_elems].
  rewrite sprint_elems_ok by now apply plain_of_words.
  pose proof He as (_ & _ & Hel & _). rewrite (store_ok e) by lia. cbn [bind].
  destruct (Z.ltb_spec 0 (zlength its)) as [Hlt|Hge]; cbn [bind]; eexists; (split; [reflexivity|]); intros before after Hb; unfold osl_body_sread; reads.
  - destruct (Z.ltb_spec 0 (zlength its)) as [_|X]; [|lia]. reads.
    rewrite strings_sread_ok; [|now apply plain_of_words|intros ->; cbn in Hlt; lia]. cbn [bind]. reads. gap [c_nl].
  - destruct (Z.ltb_spec 0 (zlength its)) as [X|_]; [lia|]. cbn [bind]. reads.
    assert (its = []) as -> by (destruct its; [reflexivity|unfold zlength in Hge; cbn in Hge; lia]). gap [c_nl].
Qed.
Print Assumptions C56_body_roundtrip.
(** The text itself: a title, the number of iterators, the iterators when there are some, a title, the expression. *)
Theorem C56_body_text : forall its e, Forall plain_string its -> plain_string e ->
  osl_body_print (Some (Body (Some (Some its)) (Some (Some [e]))))
  = Ok (lit "# Number of original iterators" ++ [c_nl] ++ print_Z (zlength its) ++ [c_nl]
        ++ match its with [] => [] | _ => [c_nl] ++ lit "# List of original iterators" ++ [c_nl] ++ join its ++ [c_nl] end
        ++ [c_nl] ++ lit "# Statement body expression" ++ [c_nl] ++ e ++ [c_nl]).
Proof.
  intros its e Hi He. unfold osl_body_print, osl_strings_print, osl_strings_sprint. cbn [bo_iterators bo_expression osl_strings_size elems].
  rewrite sprint_elems_ok by assumption. rewrite (sprint_elems_ok [e]) by (constructor; [assumption|constructor]). cbn [bind join]. unfold ln, lnZ.
  destruct its as [|x its]; [cbn; reflexivity|]. replace (0 <? zlength (x :: its)) with true by (unfold zlength; cbn [List.length]; lia). cbn [bind]. f_equal. repeat (progress (rewrite <- ?app_assoc; cbn [app])). reflexivity.
Qed.
Print Assumptions C56_body_text.
Example C56_body_ex : osl_body_print (Some (Body (Some (Some [lit "i"; lit "j"])) (Some (Some [lit "A[i] = i * j;"]))))
  = Ok (ln (lit "# Number of original iterators") ++ ln (lit "2") ++ [c_nl] ++ ln (lit "# List of original iterators")
        ++ ln (lit "i j") ++ [c_nl] ++ ln (lit "# Statement body expression") ++ ln (lit "A[i] = i * j;")).
Proof. vm_compute. reflexivity. Qed.

(** ** String lists *)
Theorem C56_strings_roundtrip : forall l rest e, l <> [] -> Forall plain_string l ->
  (List.length (concat l) + List.length l <= 2047)%nat ->
  exists text, osl_strings_print (Some (Some l)) = Ok text /\
    osl_strings_read (File (text ++ rest) e) = Ok (Some (Some l), File rest e).
Proof.
  intros l rest e Hne H Hlen. destruct (C28_string_roundtrip l rest Hne H) as (text & E & _). exists text. split; [exact E|].
  apply C28_file_roundtrip; try assumption. unfold osl_strings_sprint in E. cbn [elems] in E. rewrite sprint_elems_ok in E by assumption.
  cbn [bind] in E. apply Ok_inj in E. subst text. rewrite app_length. cbn [List.length].
  assert (X : (List.length (join l) + 1 = List.length (concat l) + List.length l)%nat); [|unfold str in *; lia].
  clear - Hne. destruct l as [|x l]; [congruence|]. clear Hne. revert x. induction l as [|y l IH]; intros x.
  - cbn [join concat List.length app]. rewrite app_nil_r. reflexivity.
  - rewrite join_cons, app_length. cbn [List.length]. specialize (IH y). cbn [concat List.length] in *. rewrite app_length. unfold str in *. lia.
Qed.
Print Assumptions C56_strings_roundtrip.

(** ** Dependences *)
Theorem C56_dependence_roundtrip : forall (cfg : config) p l text, config_ok cfg -> supported cfg p ->
  count_ok l -> Forall (dependence_ok cfg p) l -> osl_dependence_print l = Ok text ->
  roundtrip (t <- osl_dependence_print l ;; Ok (Some t)) (fun s => osl_dependence_psread s p) l.
Proof.
  intros cfg p l text Hcfg Hsup Hc Hl E. unfold osl_dependence_print in *. inv_bind E.
  destruct v as [t|]; [|discriminate]. apply Ok_inj in E. subst text.
  destruct (C33_dependence_roundtrip cfg p l t Hcfg Hsup Hc Hl E0) as (t' & E' & Hr). rewrite E0 in E'. apply Ok_inj, Some_eq in E'. subst t'.
  rewrite E0. cbn [bind]. exists (ln t). split; [reflexivity|]. intros before after Hb. unfold ln. rewrite <- app_assoc.
  destruct (Hr before ([c_nl] ++ after) Hb) as (g & Hg & ->). exists (g ++ [c_nl]). rewrite <- app_assoc. split; [|reflexivity].
  apply blank_text_app; [assumption|blank].
Qed.
Print Assumptions C56_dependence_roundtrip.

(** ** Allocation in the precision of the environment (C38): zero coefficients, no type, no dimensions *)
Theorem C56_relation_malloc : forall (cfg : config) env R C, 0 <= R -> 0 <= C ->
  exists r, osl_relation_malloc env R C = Ok r /\ rprec r = osl_util_get_precision env /\
    nrows r = R /\ ncols r = C /\ rows r = repeat (repeat 0 (Z.to_nat C)) (Z.to_nat R) /\
    rtype r = UNDEFINED /\ nout r = UNDEFINED /\ nin r = UNDEFINED /\ nloc r = UNDEFINED /\ npar r = UNDEFINED.
Proof.
  intros cfg env R C HR HC. pose proof (C38_precision_supported cfg env) as Hsup. cbv zeta in Hsup.
  assert (Hs : supported cfg (osl_util_get_precision env)).
  { unfold osl_util_get_precision. unfold supported. destruct env as [s|]; [|destruct (gmp cfg); auto].
    destruct (str_eqb s (lit "32")); [auto|]. destruct (str_eqb s (lit "64")); [auto|]. destruct (str_eqb s (lit "0")); destruct (gmp cfg); auto. }
  destruct (pmalloc_ok _ R C Hs HR HC) as (m & E & M & Hz). eexists. split; [exact E|].
  cbn [rprec nrows ncols rtype nout nin nloc npar]. repeat (split; [reflexivity|]). split; [|repeat split].
  unfold rows. cbn [ncols nrows rm]. destruct (Z.eqb_spec C 0) as [->|Hne]; [reflexivity|].
  apply (mat_ext R C); [assumption| |].
  - split; [lia|]. split; [lia|]. split; [intros [->|X]; [reflexivity|lia]|]. intros _ _. rewrite zlength_repeat. split; [lia|].
    apply Forall_forall. intros x Hx. apply repeat_spec in Hx. subst. rewrite zlength_repeat. lia.
  - intros i j Hi Hj. rewrite Hz by lia. unfold cell. now rewrite !znth_repeat by lia.
Qed.
Print Assumptions C56_relation_malloc.
(** The function of the interface gives a relation without rows. *)
Theorem C56_interface_malloc : forall (cfg : config) env,
  exists r, osl_relation_interface_malloc env = Ok r /\ rprec r = osl_util_get_precision env /\ nrows r = 0 /\ ncols r = 0 /\ rows r = [] /\ rtype r = UNDEFINED.
Proof.
  intros cfg env. destruct (C56_relation_malloc cfg env 0 0 ltac:(lia) ltac:(lia)) as (r & E & H1 & H2 & H3 & H4 & H5 & _). exists r. repeat split; assumption.
Qed.
Print Assumptions C56_interface_malloc.
Theorem C56_vector_malloc : forall (cfg : config) env n, 0 <= n ->
  osl_vector_malloc env n = Ok (mkvec (osl_util_get_precision env) n (repeat 0 (Z.to_nat n))).
Proof.
  intros cfg env n H. apply C08_malloc_zero; [|assumption].
  unfold osl_util_get_precision, supported. destruct env as [s|]; [|destruct (gmp cfg); auto].
  destruct (str_eqb s (lit "32")); [auto|]. destruct (str_eqb s (lit "64")); [auto|]. destruct (str_eqb s (lit "0")); destruct (gmp cfg); auto.
Qed.
Print Assumptions C56_vector_malloc.
Example C56_malloc_ex : @osl_relation_malloc lp64_debug (Some (lit "32")) 2 3 =
  Ok (mkrel UNDEFINED 32 2 3 UNDEFINED UNDEFINED UNDEFINED UNDEFINED [[0;0;0];[0;0;0]]) /\
  @osl_relation_interface_malloc lp64_debug None = Ok (mkrel UNDEFINED 0 0 0 UNDEFINED UNDEFINED UNDEFINED UNDEFINED []) /\
  @osl_relation_malloc lp64_debug None (-1) 2 = Err.
Proof. vm_compute. auto. Qed.
