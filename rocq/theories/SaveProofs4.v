(** * SaveProofs4: reading back scops *)
From Coq Require Import ZifyBool ZifyNat.
From Verif Require Import Base IntModel VectorModel RelationModel UtilModel StringsModel RelTextModel
  Spec RelSpec TextSpec LoopLemmas TextInt UtilProofs UtilProofs2 PropUtil RelTextProofs RelTextProofs2 RelTextProofs3 RelTextProofs4
  PropStrings PropRelText ExtModel ExtSpec ExtProofs PropExt PropExt2 PropExt3 ScopModel SaveSpec SaveProofs SaveProofs2 SaveProofs3.

Lemma nls_blank b : nls b -> blank_text b.
Proof. induction 1 as [|x l -> H IH]; [constructor|]. apply bt_space; [reflexivity|assumption]. Qed.
Lemma list_set_Forall {A} (P : A -> Prop) x : P x -> forall l n, Forall P l -> Forall P (list_set n x l).
Proof. intros Hx. induction l as [|y l IH]; intros [|n] H; cbn; auto; apply Forall_cons_iff in H; destruct H; constructor; auto. Qed.
Lemma aset_Forall {A} (P : A -> Prop) l i x l' : Forall P l -> P x -> aset l i x = Ok l' -> Forall P l'.
Proof.
  intros H Hx E. unfold aset in E. destruct (_ && _) in E; [|discriminate]. apply Ok_inj in E. subst l'. now apply list_set_Forall.
Qed.
Lemma blank_rule w : no_nl w -> blank_text (rule_title w).
Proof.
  intros H. unfold rule_title, ln. rewrite app_assoc. apply (blank_ln (lit " =============================================== " ++ w)).
  apply no_nl_app. split; [apply no_nlb_ok; reflexivity|assumption].
Qed.
Lemma blank_text_app a b : blank_text a -> blank_text b -> blank_text (a ++ b).
Proof.
  induction 1 as [|c a Hc Ha IH|w a Hw Ha IH]; intros Hb; cbn [app]; [assumption|apply bt_space; auto|].
  rewrite <- app_assoc. cbn [app]. apply bt_comment; auto.
Qed.
(** ** Names *)
Lemma names_of_ok a n : names_of a = Ok n -> one_line_names (Some n).
Proof.
  unfold names_of, osl_names_generate. intros H. inv_bind H. inv_bind H. inv_bind H. inv_bind H. inv_bind H. apply Ok_inj in H. subst n. cbn.
  repeat split; (eapply generate_no_nl; [|eassumption]; apply no_nlb_ok; reflexivity).
Qed.
Lemma put_names_ok a : forall l l', Forall (fun x => no_nl (snd x)) a -> Forall no_nl l -> put_names a l = Ok l' -> Forall no_nl l'.
Proof.
  induction a as [|[id x] a IH]; intros l l' Ha Hl E; cbn [put_names] in E; [apply Ok_inj in E; now subst|].
  apply Forall_cons_iff in Ha. destruct Ha as [Hx Ha]. inv_bind E. apply (IH v); [assumption| |assumption].
  now apply (aset_Forall no_nl l (id - 1) x).
Qed.
Section P.
Variable cfg : config.
Variable env : option str.
Variable p : Z.
Hypothesis Hcfg : config_ok cfg.
Hypothesis Hsup : supported cfg p.
Hypothesis Hp : osl_util_get_precision env = p.

Lemma statements_read registry n : one_line_names (Some n) -> forall l k text b rest,
  Forall (statement_ok cfg p registry) l -> statements_pprint k l n = Ok text -> short_lines text -> nls b ->
  exists b', nls b' /\ read_statements env (List.length l) registry p (File (b ++ text ++ rest) false)
    = Ok (map reread_statement l, File (b' ++ rest) false).
Proof.
  intros Hn. induction l as [|s l IH]; intros k text b rest Hl E Hs Hb; cbn [statements_pprint] in E.
  - apply Ok_inj in E. subst text. exists b. split; [assumption|]. reflexivity.
  - inv_bind E. inv_bind E. apply Ok_inj in E. subst text. apply Forall_cons_iff in Hl. destruct Hl as [H1 Hl].
    destruct (statement_read cfg env p Hcfg Hsup Hp registry k s n v b (v0 ++ rest)) as (b1 & N1 & X1); try assumption; [now apply short_lines_left in Hs|].
    destruct (IH (k + 1) v0 b1 rest) as (b2 & N2 & X2); try assumption; [now apply short_lines_tail in Hs|].
    exists b2. split; [assumption|]. cbn [List.length read_statements map]. rewrite <- app_assoc. rewrite X1. cbn [bind]. rewrite X2. reflexivity.
Qed.
Lemma params_ok registry n l n' : (l = [] \/ exists k d, l = [Generic (Some (Iface (Some (lit "strings")) k)) (Some d)] /\
    generic_ok cfg p registry (Generic (Some (Iface (Some (lit "strings")) k)) (Some d))) ->
  one_line_names (Some n) -> with_parameters n l = Ok n' -> one_line_names (Some n').
Proof.
  intros [->|(k & d & -> & Hg)] (H1 & H2 & H3 & H4 & H5) E; cbn [with_parameters] in E; [apply Ok_inj in E; subst; cbn; auto|].
  cbn [has_uri g_uri g_iface if_uri g_data] in E. change (uri_of KStrings) with (lit "strings") in E. unfold has_uri in E. cbn [g_uri g_iface if_uri] in E.
  rewrite str_eqb_refl in E. destruct d; try discriminate. apply Ok_inj in E. subst n'.
  inversion Hg as [? ? ? ? ? ? Hd ?]; subst. inversion Hd as [l Hl Hw| | | | | | | | | | | | | | | |]; subst. cbn.
  repeat (split; [|auto]). revert Hw. apply Forall_impl. apply word_no_nl.
Qed.
Lemma arrays_names registry n l n' : Forall (generic_ok cfg p registry) l ->
  one_line_names (Some n) -> with_arrays n l = Ok n' -> one_line_names (Some n').
Proof.
  intros Hl (H1 & H2 & H3 & H4 & H5) E. unfold with_arrays in E. destruct (osl_generic_lookup l (uri_of KArrays)) as [d|] eqn:L.
  - destruct d; try discriminate. inv_bind E. destruct v as [s|]; [|discriminate]. apply Ok_inj in E. subst n'.
    destruct (lookup_payload _ _ _ _ _ _ Hl L) as (k & X). inversion X as [| | | | | | |a' Ha| | | | | | | | |]; subst.
    cbn. repeat (split; [assumption|]). unfold osl_arrays_to_strings in E0. inv_bind E0.
    assert (Hv : Forall no_nl (elems v)) by (eapply generate_no_nl; [|eassumption]; apply no_nlb_ok; reflexivity).
    destruct v as [v|]; [|destruct a; [apply Ok_inj in E0; apply Some_eq in E0; subst; constructor|discriminate]].
    destruct a as [|x a]; [apply Ok_inj in E0; apply Some_eq in E0; subst; exact Hv|]. inv_bind E0. apply Ok_inj in E0. apply Some_eq in E0. subst s. cbn.
    apply (put_names_ok (x :: a) v); [|exact Hv|assumption]. destruct Ha as [_ Ha]. revert Ha. apply Forall_impl. intros y [_ Hy]. now apply word_no_nl in Hy.
  - apply Ok_inj in E. subst. cbn. auto.
Qed.

(** ** Scops *)
Lemma params_read registry ps tp : (ps = [] \/ exists k d, ps = [Generic (Some (Iface (Some (lit "strings")) k)) (Some d)] /\
    generic_ok cfg p registry (Generic (Some (Iface (Some (lit "strings")) k)) (Some d))) -> osl_generic_sprint ps = Ok tp ->
  exists D b G o, osl_util_print_provided (osl_generic_has_URI ps (uri_of KStrings)) (lit "Parameters are") ++ tp = D ++ lnZ b ++ G /\
    blank_lines D /\ c_int b /\ node o = map reread_file ps /\
    forall rest, (if 0 <? b then osl_generic_read_one env (File (G ++ rest) false) registry else Ok (None, File (G ++ rest) false))
      = Ok (o, File (c_nl :: rest) false).
Proof.
  intros [->|(k & d & -> & Hg)] E.
  - cbn in E. apply Ok_inj in E. subst tp. exists (ln (lit "# Parameters are not provided")), 0, [c_nl], None.
    split; [reflexivity|]. split; [apply bl_lit; eexists; split; reflexivity|]. split; [unfold c_int; lia|]. split; reflexivity.
  - unfold osl_generic_sprint in E. cbn [generics_text] in E. inv_bind E. apply Ok_inj in E. rewrite !app_nil_r in E. subst v.
    exists (ln (lit "# Parameters are provided")), 1, tp, (Some (reread_file (Generic (Some (Iface (Some (lit "strings")) k)) (Some d)))).
    split; [reflexivity|]. split; [apply bl_lit; eexists; split; reflexivity|]. split; [unfold c_int; lia|]. split; [reflexivity|].
    intros rest. cbn [Z.ltb Z.compare]. apply (read_one_step cfg env p Hcfg Hsup Hp registry _ tp [] rest Hg E0). constructor.
Qed.
Lemma scop_tag : tag_name uri_scop.
Proof. split; [discriminate|]. apply Forall_forall. intros c H. cbn in H. repeat (destruct H as [<-|H]; [vm_compute; auto|]). destruct H. Qed.
Lemma scop_read registry s n text : scop_ok cfg p registry s -> one_line_names (Some n) ->
  scop_print_one s n = Ok text -> short_lines text ->
  exists body, text = c_nl :: start_tag uri_scop ++ body /\
    forall rest, scop_pread_one env registry p (File (body ++ rest) false) = Ok (reread_scop s, File (c_nl :: c_nl :: rest) false).
Proof.
  intros (Hv & Hr & (w & Hw & Hww) & Hc & Hco & Hps & Hns & Hst & (He1 & He2 & He3) & Ho) Hn E Hs.
  destruct s as [ver lang ctx ps stmts reg ext]. cbn [sc_version sc_registry sc_language sc_context sc_params sc_stmts sc_ext] in *. subst ver reg lang.
  unfold scop_print_one in E. cbn [sc_version sc_registry sc_language sc_context sc_params sc_stmts sc_ext] in E.
  inv_bind E. pose proof (params_ok _ _ _ _ Hps Hn E0) as Hn1. clear E0. inv_bind E. pose proof (arrays_names _ _ _ _ He2 Hn1 E0) as Hn2. clear E0.
  clear Hn Hn1 n v. rename v0 into n. inv_bind E. rename v into tc, E0 into Ec. inv_bind E. rename v into tp, E0 into Ep.
  inv_bind E. rename v into ts, E0 into Es. inv_bind E. rename v into te, E0 into Ee. apply Ok_inj in E.
  destruct (params_read registry ps tp Hps Ep) as (D & b & G & o & EP & HD & Hb & Ho' & RP).
  set (A := [c_nl; c_nl] ++ rule_title (lit "Global") ++ ln (lit "# Language")).
  set (C := [c_nl] ++ ln (lit "# Context")). set (S := c_nl :: c_nl :: ln (lit "# Number of statements")).
  set (X := match ext with [] => [] | _ => rule_title (lit "Extensions") ++ te end) in *.
  exists (A ++ ln w ++ C ++ tc ++ [c_nl] ++ D ++ lnZ b ++ G ++ tl S ++ lnZ (osl_statement_number stmts) ++ [c_nl] ++ ts ++ X ++ [c_nl] ++ end_tag uri_scop ++ [c_nl; c_nl]).
  assert (Et : text = c_nl :: start_tag uri_scop ++ A ++ ln w ++ C ++ tc ++ [c_nl] ++ D ++ lnZ b ++ G ++ tl S ++ lnZ (osl_statement_number stmts) ++ [c_nl] ++ ts ++ X ++ [c_nl] ++ end_tag uri_scop ++ [c_nl; c_nl]).
  { subst text. rewrite (app_assoc D), (app_assoc (D ++ _)). rewrite <- (app_assoc D). rewrite <- EP. subst A C S. unfold start_tag, ln. rewrite <- !app_assoc. reflexivity. }
  split; [exact Et|]. intros rest. clear E EP.
  assert (HA : blank_lines A).
  { subst A. apply (blank_lines_app [c_nl; c_nl]); [apply nls_lines; repeat constructor|]. apply blank_lines_app; [apply bl_rule, no_nlb_ok; reflexivity|]. apply bl_lit. eexists. split; reflexivity. }
  assert (HC : blank_lines C).
  { subst C. apply blank_lines_app; [apply bl_nl|]. apply bl_lit. eexists. split; reflexivity. }
  assert (HS : blank_lines S).
  { subst S. apply (blank_lines_app [c_nl; c_nl]); [apply nls_lines; repeat constructor|]. apply bl_lit. eexists. split; reflexivity. }
  assert (S0 : short_lines S). { subst S. apply short_cons, short_cons. intros x y z Exy _. apply (f_equal (@List.length _)) in Exy. rewrite !app_length in Exy. cbn in Exy. lia. }
  subst text. change (c_nl :: start_tag uri_scop ++ ?q) with ((c_nl :: start_tag uri_scop) ++ q) in Hs. apply short_lines_tail in Hs.
  assert (SA : short_lines A) by (subst A; now apply short_lines_left in Hs).
  apply short_lines_tail in Hs. assert (Sw : (List.length w <= 2046)%nat) by apply Hww. apply short_lines_tail in Hs.
  assert (SC : short_lines C) by now apply short_lines_left in Hs.
  apply short_lines_tail in Hs. assert (Sc : short_lines tc) by now apply short_lines_left in Hs.
  apply short_lines_tail in Hs. assert (SD : short_lines ([c_nl] ++ D)) by (rewrite app_assoc in Hs; now apply short_lines_left in Hs).
  do 6 apply short_lines_tail in Hs. assert (St : short_lines ([c_nl] ++ ts)) by (rewrite app_assoc in Hs; now apply short_lines_left in Hs).
  apply short_lines_tail in St. clear Hs.
  assert (Hz : c_int (osl_statement_number stmts)). { unfold osl_statement_number, c_int. pose proof (zlength_nonneg stmts). lia. }
  assert (X1 : ~ occurs (end_tag uri_scop) X).
  { subst X. destruct ext as [|g ext]; [intros (a0 & b0 & Eab); destruct a0; discriminate|]. rewrite end_tag_shape. apply occurs_free.
    - clear. unfold rule_title. intros X. assert (Y : forallb (fun c => negb (ceqb c c_lt)) (lit "# =============================================== " ++ ln (lit "Extensions")) = true) by reflexivity.
      rewrite forallb_forall in Y. specialize (Y _ X). now rewrite ceqb_refl in Y.
    - exact (Ho _ Ee). }
  unfold scop_pread_one. rewrite <- !app_assoc.
  rewrite (file_strings A _ _ (Some (Some [w]), File (C ++ tc ++ [c_nl] ++ D ++ lnZ b ++ G ++ tl S ++ lnZ (osl_statement_number stmts) ++ [c_nl] ++ ts ++ X ++ [c_nl] ++ end_tag uri_scop ++ [c_nl; c_nl] ++ rest) false));
    [|assumption|assumption|].
  2:{ apply C28_file_roundtrip; [discriminate|constructor; [|constructor]; destruct Hww as (W1 & W2 & W3); split; [assumption|split; [lia|assumption]]| |].
    - unfold osl_strings_sprint. cbn [elems]. rewrite sprint_elems_ok by (constructor; [|constructor]; destruct Hww as (W1 & W2 & W3); split; [assumption|split; [lia|assumption]]). reflexivity.
    - unfold ln. rewrite app_length. cbn. lia. }
  cbn [bind elems].
  erewrite (file_relation cfg C); [|assumption|assumption|].
  2:{ apply (C20_file_roundtrip cfg p TYPE_CONTEXT ctx (Some n)); try assumption; [apply Hco|unfold printable_type; cbn; tauto|apply Hco]. }
  cbn [bind]. rewrite (app_assoc [c_nl] D). rewrite file_int; [|apply blank_lines_app; [apply bl_nl|assumption]|assumption|assumption]. cbn [bind].
  rewrite RP. cbn [bind]. change (c_nl :: tl S ++ ?q) with (S ++ q). rewrite file_int by assumption. cbn [bind].
  replace (Z.to_nat (osl_statement_number stmts)) with (List.length stmts) by (unfold osl_statement_number, zlength; lia).
  destruct (statements_read registry n Hn2 stmts 1 ts [c_nl] (X ++ [c_nl] ++ end_tag uri_scop ++ [c_nl; c_nl] ++ rest)) as (b' & N & R); try assumption; [repeat constructor|].
  rewrite R. cbn [bind]. unfold osl_generic_read, osl_util_read_uptoendtag_f. change (endtag_of uri_scop) with (end_tag uri_scop).
  destruct (C26_uptoflag_file (b' ++ X ++ [c_nl] ++ end_tag uri_scop ++ [c_nl; c_nl] ++ rest) (end_tag uri_scop)) as [U _]; [discriminate|vm_compute; intuition discriminate|].
  rewrite (U (b' ++ X ++ [c_nl]) ([c_nl; c_nl] ++ rest)).
  2:{ replace (b' ++ X ++ [c_nl] ++ end_tag uri_scop ++ [c_nl; c_nl] ++ rest) with ((b' ++ X ++ [c_nl]) ++ end_tag uri_scop ++ [c_nl; c_nl] ++ rest) by now rewrite <- !app_assoc.
    rewrite end_tag_shape. apply first_flag; [apply tag_after, scop_tag|]. apply occurs_free; [now apply nls_no_lt|].
    apply occurs_end; [vm_compute; intuition discriminate|intros []|exact X1]. }
  cbn [bind]. unfold osl_generic_sread.
  assert (F : sread_loop env (Datatypes.S (List.length (b' ++ X ++ [c_nl]))) registry [] (b' ++ X ++ [c_nl]) = Ok (map reread_generic ext, [])).
  { destruct ext as [|g ext].
    - subst X. cbn [app]. apply sread_loop_blank; [|lia]. apply nls_app; [assumption|repeat constructor].
    - subst X. rewrite app_assoc. rewrite app_assoc. rewrite <- (app_assoc _ te).
      apply (sread_ok cfg env p Hcfg Hsup Hp registry (g :: ext) _ []); try assumption.
      + apply blank_text_app; [now apply nls_blank|apply blank_rule, no_nlb_ok; reflexivity].
      + discriminate.
      + repeat constructor.
      + lia. }
  rewrite F. cbn [bind]. rewrite Ho'. reflexivity.
Qed.
Lemma find_scop pre rest : ~ In c_lt pre -> osl_util_read_uptotag_f (File (pre ++ start_tag uri_scop ++ rest) false) uri_scop
  = Ok (Some pre, File rest false).
Proof.
  intros H. unfold osl_util_read_uptotag_f. change (tag_of uri_scop) with (start_tag uri_scop).
  destruct (C26_uptoflag_file (pre ++ start_tag uri_scop ++ rest) (start_tag uri_scop)) as [U _]; [discriminate|vm_compute; intuition discriminate|].
  apply U. change (start_tag uri_scop) with (c_lt :: tl (start_tag uri_scop)). apply first_flag; [vm_compute; intuition discriminate|].
  rewrite <- (app_nil_r pre). apply occurs_free; [assumption|]. intros (a & b & E). destruct a; discriminate.
Qed.
Lemma no_scop pre : ~ In c_lt pre -> osl_util_read_uptotag_f (File pre false) uri_scop = Ok (None, File [] true).
Proof.
  intros H. unfold osl_util_read_uptotag_f. change (tag_of uri_scop) with (start_tag uri_scop).
  destruct (C26_uptoflag_file pre (start_tag uri_scop)) as [_ U]; [discriminate|vm_compute; intuition discriminate|].
  apply U. change (start_tag uri_scop) with (c_lt :: tl (start_tag uri_scop)).
  rewrite <- (app_nil_r pre). apply occurs_free; [assumption|]. intros (a & b & E). destruct a; discriminate.
Qed.
Lemma scops_read registry n : one_line_names (Some n) -> forall l text pre fuel, Forall (scop_ok cfg p registry) l ->
  print_all (fun s => scop_print_one s n) l = Ok text -> short_lines text -> ~ In c_lt pre -> (List.length l < fuel)%nat ->
  scops_pread env fuel registry p (File (pre ++ text) false) = Ok (map reread_scop l, File [] true).
Proof.
  intros Hn. induction l as [|s l IH]; intros text pre fuel Hl E Hs Hpre Hf; cbn [print_all] in E.
  - apply Ok_inj in E. subst text. rewrite app_nil_r. destruct fuel as [|fuel]; [cbn in Hf; lia|]. cbn [scops_pread]. rewrite no_scop by assumption. reflexivity.
  - inv_bind E. inv_bind E. apply Ok_inj in E. subst text. apply Forall_cons_iff in Hl. destruct Hl as [H1 Hl].
    destruct (scop_read registry s n v) as (body & Ev & R); try assumption; [now apply short_lines_left in Hs|].
    destruct fuel as [|fuel]; [cbn in Hf; lia|]. cbn [scops_pread].
    replace (pre ++ v ++ v0) with ((pre ++ [c_nl]) ++ start_tag uri_scop ++ body ++ v0) by (subst v; rewrite <- !app_assoc; reflexivity).
    rewrite find_scop by (intros X; apply in_app_or in X; destruct X as [X|[X|[]]]; [auto|discriminate]). cbn [bind]. rewrite R. cbn [bind].
    rewrite (IH v0 [c_nl; c_nl]); [reflexivity|assumption|assumption|now apply short_lines_tail in Hs|intros [X|[X|[]]]; discriminate|cbn in Hf; lia].
Qed.
Lemma print_all_length {A} (f : A -> res str) l text : (forall x t, f x = Ok t -> t <> []) -> print_all f l = Ok text -> (List.length l <= List.length text)%nat.
Proof.
  intros H. revert text. induction l as [|x l IH]; intros text E; cbn [print_all] in E; [cbn; lia|]. inv_bind E. inv_bind E. apply Ok_inj in E. subst text.
  rewrite app_length. specialize (IH _ E1). apply H in E0. destruct v; [congruence|]. cbn. lia.
Qed.
Lemma scop_text_nonempty s n t : scop_print_one s n = Ok t -> t <> [].
Proof. intros E. unfold scop_print_one in E. do 6 (inv_bind E). apply Ok_inj in E. subst. discriminate. Qed.
(** ** Integrity *)
Lemma lookup_reread l u : osl_generic_lookup (map reread_file l) u
  = match osl_generic_lookup l u with Some d => g_data (reread_file (Generic None (Some d))) | None => None end.
Proof.
  induction l as [|g l IH]; [reflexivity|]. cbn [map osl_generic_lookup]. unfold has_uri. rewrite uri_reread_file.
  destruct (g_uri g) as [v|]; [destruct (str_eqb v u); [|exact IH]|exact IH]. destruct g as [i [d|]]; [|reflexivity]. cbn [g_data]. destruct d; reflexivity.
Qed.
Lemma body_of_reread l : body_of (map reread_file l) = body_of l.
Proof.
  unfold body_of. rewrite lookup_reread. destruct (osl_generic_lookup l (uri_of KBody)) as [d|]; [|reflexivity]. destruct d; try reflexivity.
Qed.
Lemma statements_integrity l : forall ep, osl_statement_integrity_check (map reread_statement l) ep = osl_statement_integrity_check l ep.
Proof.
  induction l as [|s l IH]; intros ep; [reflexivity|]. cbn [map osl_statement_integrity_check]. cbn [reread_statement st_domain st_scattering st_access st_ext].
  rewrite body_of_reread. rewrite IH. reflexivity.
Qed.
Lemma scops_integrity l : osl_scop_integrity_check (map reread_scop l) = osl_scop_integrity_check l.
Proof.
  induction l as [|s l IH]; [reflexivity|]. cbn [map osl_scop_integrity_check]. cbn [reread_scop sc_context sc_stmts].
  rewrite statements_integrity, IH. reflexivity.
Qed.
Lemma scop_roundtrip registry l text : Forall (scop_ok cfg p registry) l -> osl_scop_print l = Ok text -> short_lines text ->
  osl_scop_pread env (File text false) registry p = Ok (map reread_scop l, File [] true).
Proof.
  intros Hl E Hs. unfold osl_scop_pread. destruct l as [|s l].
  - cbn in E. apply Ok_inj in E. subst text. cbn [scops_pread]. rewrite no_scop; [reflexivity|]. vm_compute. intuition discriminate.
  - unfold osl_scop_print in E. set (L := s :: l) in *. destruct (osl_scop_integrity_check L) as [bb| | |] eqn:EI; try discriminate. cbn [bind] in E.
    inv_bind E. inv_bind E. apply Ok_inj in E. subst text.
    assert (Hn : one_line_names (Some v)). { unfold osl_scop_names in E0. inv_bind E0. now apply names_of_ok in E0. }
    set (pre := lit "# [File generated by the OpenScop Library " ++ release ++ ln (lit "]")).
    assert (Ex : lit "# [File generated by the OpenScop Library " ++ release ++ ln (lit "]") ++ v0 = pre ++ v0) by (subst pre; rewrite <- !app_assoc; reflexivity).
    rewrite Ex in Hs |- *. clear Ex.
    rewrite (scops_read registry v Hn L v0 pre); [|assumption|assumption|now apply short_lines_tail in Hs|subst pre; vm_compute; intuition discriminate|].
    + cbn [bind]. rewrite scops_integrity, EI. reflexivity.
    + cbn [ftext]. rewrite app_length. pose proof (print_all_length _ _ _ (fun x t => scop_text_nonempty x v t) E1). lia.
Qed.
End P.
