(** * ReadHeapProofs7: a printed scop has no closing tag where an extension is expected (C60) *)
From stdpp Require Import gmap.
From Coq Require Import ZifyBool ZifyNat.
From Verif Require Import Base IntModel VectorModel RelationModel UtilModel StringsModel RelTextModel
  Spec RelSpec TextSpec LoopLemmas TextInt UtilProofs UtilProofs2 PropUtil RelTextProofs RelTextProofs2 RelTextProofs3 RelTextProofs4
  PropStrings PropRelText ExtModel ExtSpec ExtProofs PropExt PropExt2 PropExt3 ScopModel SaveSpec SaveProofs SaveProofs2 SaveProofs3 SaveProofs4 PropClone ReadHeapSpec.
Local Open Scope string_scope.
Local Open Scope list_scope.
Local Open Scope Z_scope.

(** Every symbol has its four extensions. *)
Fixpoint solid (d : edata) : Prop := match d with DSymbols l => fold_right (fun x P => solid_symbol x /\ P) True l | _ => True end
with solid_symbol (x : symbol) : Prop :=
  match x with
  | Symbol _ _ _ a b c e =>
      (a <> [] /\ fold_right (fun x P => solid_generic x /\ P) True a) /\ (b <> [] /\ fold_right (fun x P => solid_generic x /\ P) True b) /\
      (c <> [] /\ fold_right (fun x P => solid_generic x /\ P) True c) /\ (e <> [] /\ fold_right (fun x P => solid_generic x /\ P) True e)
  end
with solid_generic (g : generic) : Prop := match g with Generic _ (Some d) => solid d | _ => True end.

Section L.
Context (cfg : config) (env : option str).
Definition clean_one (one : str -> res (option generic * str)) (lost : str -> list str) : Prop :=
  forall s g s', one s = Ok (Some g, s') -> solid_generic g -> lost s = [].
Lemma solid_node one lost s o s' : clean_one one lost -> one s = Ok (o, s') -> node o <> [] ->
  fold_right (fun x P => solid_generic x /\ P) True (node o) -> lost s = [].
Proof. intros Hc E N F. destruct o as [g|]; [|now destruct N]. apply (Hc s g s' E). apply F. Qed.
Lemma symbol_clean one lost s x s' : clean_one one lost -> symbol_sread_one one s = Ok (x, s') -> solid_symbol x -> lost_symbol one lost s = [].
Proof.
  intros Hc E Hs. unfold symbol_sread_one in E. unfold lost_symbol.
  destruct (osl_util_read_string_s s) as [[ty s1]| | |]; try discriminate. cbn [bind after] in *.
  destruct (osl_util_read_int_s s1) as [[gen s2]| | |]; try discriminate. cbn [bind after] in *.
  destruct (osl_util_read_int_s s2) as [[dims s3]| | |]; try discriminate. cbn [bind after] in *.
  destruct (one s3) as [[a s4]| | |] eqn:E1; try discriminate. cbn [bind after] in *.
  destruct (one s4) as [[b s5]| | |] eqn:E2; try discriminate. cbn [bind after] in *.
  destruct (one s5) as [[c s6]| | |] eqn:E3; try discriminate. cbn [bind after] in *.
  destruct (one s6) as [[e s7]| | |] eqn:E4; try discriminate. cbn [bind after] in *.
  apply Ok_inj in E. assert (Ex : x = Symbol (symbol_type_of ty) gen dims (node a) (node b) (node c) (node e)) by congruence. subst x.
  destruct Hs as ([A1 A2] & [B1 B2] & [C1 C2] & [D1 D2]).
  rewrite (solid_node one lost s3 a s4 Hc E1 A1 A2), (solid_node one lost s4 b s5 Hc E2 B1 B2), (solid_node one lost s5 c s6 Hc E3 C1 C2), (solid_node one lost s6 e s7 Hc E4 D1 D2). reflexivity.
Qed.
Lemma symbols_clean one lost n : clean_one one lost -> forall s l s', symbols_sread_loop one n s = Ok (l, s') ->
  fold_right (fun x P => solid_symbol x /\ P) True l -> lost_symbols_loop one lost n s = [].
Proof.
  intros Hc. induction n as [|n IH]; intros s l s' E Hs; [reflexivity|]. cbn [symbols_sread_loop lost_symbols_loop] in *.
  destruct (symbol_sread_one one s) as [[x s1]| | |] eqn:E1; try discriminate. cbn [bind after] in *.
  destruct (symbols_sread_loop one n s1) as [[l1 s2]| | |] eqn:E2; try discriminate. cbn [bind] in E. apply Ok_inj in E. assert (l = x :: l1) as -> by congruence.
  destruct Hs as [H1 H2]. rewrite (symbol_clean one lost s x s1 Hc E1 H1). now apply (IH s1 l1 s2).
Qed.
Lemma extension_clean one lost registry tag content g : clean_one one lost -> make_generic env one registry tag content = Ok (Some g) -> solid_generic g ->
  lost_in_extension one lost registry tag content = [].
Proof.
  intros Hc E Hs. unfold make_generic in E. unfold lost_in_extension. destruct (osl_interface_lookup registry tag) as [[u k]|]; [|reflexivity].
  destruct content as [s|]; [|now destruct k]. destruct k; try reflexivity. cbn [if_kind data_sread] in E. unfold lost_symbols, symbols_sread_with in *.
  destruct (MAX_STRING <? zlength s); [discriminate|]. destruct (osl_util_read_int_s s) as [[nb s1]| | |]; try reflexivity. cbn [bind] in E.
  destruct (nb <? 0); [discriminate|]. destruct (symbols_sread_loop one (Z.to_nat nb) s1) as [[l s2]| | |] eqn:E1; try discriminate. cbn [bind] in E.
  apply Ok_inj in E. assert (Eg : g = Generic (Some (Iface u KSymbols)) (some_list DSymbols l)) by congruence. subst g.
  apply (symbols_clean one lost _ Hc s1 l s2 E1). destruct l; [exact I|exact Hs].
Qed.
Lemma usable_closing t tag : usable_tag t = Ok (Some tag) -> closing t = [].
Proof. destruct t as [[|c t]|]; cbn; try discriminate. destruct (ceqb c c_slash); [discriminate|reflexivity]. Qed.
Lemma one_clean k : forall registry s g s', sread_one_fuel env k registry s = Ok (Some g, s') -> solid_generic g -> lost_one env k registry s = [].
Proof.
  induction k as [|k IH]; intros registry s g s' E Hs; [reflexivity|]. cbn [sread_one_fuel lost_one] in *.
  destruct (osl_util_read_tag_s s) as [[t s1]| | |]; try reflexivity. cbn [bind] in E.
  destruct (usable_tag t) as [[tag|]| | |] eqn:U; try discriminate. cbn [bind] in E. rewrite (usable_closing _ _ U). cbn [app].
  destruct (osl_util_read_uptoendtag_s s1 tag) as [content s2]. cbn [fst].
  destruct (make_generic env (sread_one_fuel env k default_registry) registry tag content) as [o| | |] eqn:E1; try discriminate. cbn [bind] in E.
  apply Ok_inj in E. assert (o = Some g) as -> by congruence.
  eapply extension_clean; [|exact E1|exact Hs]. intros z g' z'. apply IH.
Qed.
Lemma generic_clean registry s g s' : osl_generic_sread_one env registry s = Ok (Some g, s') -> solid_generic g -> lost_generic env registry s = [].
Proof. apply one_clean. Qed.
Lemma file_one_clean registry f g f' : osl_generic_read_one env f registry = Ok (Some g, f') -> solid_generic g -> lost_file_one env registry f = [].
Proof.
  intros E Hs. unfold osl_generic_read_one in E. unfold lost_file_one. destruct (osl_util_read_tag_f f) as [[t f1]| | |]; try reflexivity. cbn [bind] in E.
  destruct (usable_tag t) as [[tag|]| | |] eqn:U; try discriminate. cbn [bind] in E. rewrite (usable_closing _ _ U). cbn [app].
  destruct (osl_util_read_uptoendtag_f f1 tag) as [[content f2]| | |]; try reflexivity. cbn [bind] in E.
  destruct (make_generic env (osl_generic_sread_one env default_registry) registry tag content) as [o| | |] eqn:E1; try discriminate. cbn [bind] in E.
  apply Ok_inj in E. assert (o = Some g) as -> by congruence.
  eapply extension_clean; [|exact E1|exact Hs]. intros z g' z'. apply generic_clean.
Qed.
End L.

(** What is printed is solid. *)
Lemma solid_all cfg p : (forall k d, payload_ok cfg p k d -> solid (reread d)) /\
  (forall l, symbols_ok cfg p l -> fold_right (fun x P => solid_symbol x /\ P) True (map reread_symbol l)) /\
  (forall r g, generic_ok cfg p r g -> solid_generic (reread_generic g)).
Proof.
  apply (save_ind cfg p (fun k d => solid (reread d)) (fun l => fold_right (fun x P => solid_symbol x /\ P) True (map reread_symbol l))
    (fun r g => solid_generic (reread_generic g))); intros; cbn; auto.
  all: try (destruct c; exact I). all: intuition discriminate.
Qed.
Lemma solid_reread cfg p r g : generic_ok cfg p r g -> solid_generic (reread_generic g).
Proof. apply (solid_all cfg p). Qed.
Lemma solid_file cfg p r g : generic_ok cfg p r g -> solid_generic (reread_file g).
Proof. intros H. pose proof (solid_reread cfg p r g H) as S. destruct g as [i [d|]]; [|exact I]. destruct d; try exact S; exact I. Qed.

Section P.
Variable cfg : config.
Variable env : option str.
Variable p : Z.
Hypothesis Hcfg : config_ok cfg.
Hypothesis Hsup : supported cfg p.
Hypothesis Hp : osl_util_get_precision env = p.
Lemma extensions_clean registry l : forall b text rest, Forall (generic_ok cfg p registry) l ->
  osl_generic_sprint l = Ok text -> nls b -> lost_extensions env (List.length l) registry (File (b ++ text ++ rest) false) = [].
Proof.
  unfold osl_generic_sprint. induction l as [|g l IH]; intros b text rest Hl Ht Hb; cbn [generics_text] in Ht; [reflexivity|].
  inv_bind Ht. inv_bind Ht. apply Ok_inj in Ht. apply List.Forall_cons_iff in Hl. destruct Hl as [Hg Hl].
  cbn [List.length lost_extensions]. subst text. rewrite <- !app_assoc.
  pose proof (read_one_step cfg env p Hcfg Hsup Hp registry g v b (match l with [] => [] | _ => [c_nl] end ++ v0 ++ rest) Hg E Hb) as R.
  rewrite (file_one_clean cfg env _ _ _ _ R (solid_file cfg p registry g Hg)). rewrite R. cbn [app after].
  pose proof (IH (c_nl :: match l with [] => [] | _ => [c_nl] end) v0 rest Hl E0) as X. cbn [app] in X. rewrite <- ?app_assoc in X. cbn [app] in X. apply X.
  constructor; [reflexivity|]. destruct l; repeat constructor.
Qed.
Lemma lost_loop_blank registry fuel b : nls b -> lost_loop env fuel registry b = [].
Proof.
  intros Hb. destruct fuel as [|fuel]; [reflexivity|]. cbn [lost_loop]. destruct b as [|c b]; [reflexivity|].
  unfold lost_generic, osl_generic_sread_one. cbn [lost_one sread_one_fuel]. unfold osl_util_read_tag_s.
  assert (B : blank_text (c :: b)) by now apply nls_blank.
  replace (c :: b) with ((c :: b) ++ []) by now rewrite app_nil_r. rewrite sskip_blank by assumption. cbn. now destruct fuel.
Qed.
Lemma loop_clean registry l : forall fuel b text rest, Forall (generic_ok cfg p registry) l ->
  osl_generic_sprint l = Ok text -> blank_text b -> (l = [] -> nls b) -> nls rest ->
  lost_loop env fuel registry (b ++ text ++ rest) = [].
Proof.
  unfold osl_generic_sprint. induction l as [|g l IH]; intros fuel b text rest Hl Ht Hb Hb' Hr; cbn [generics_text] in Ht.
  - apply Ok_inj in Ht. subst text. cbn [app]. apply lost_loop_blank. apply nls_app; auto.
  - inv_bind Ht. inv_bind Ht. apply Ok_inj in Ht. apply List.Forall_cons_iff in Hl. destruct Hl as [Hg Hl].
    destruct (sprint_one_ok _ _ _ _ _ Hg E) as (u0 & k & d & content & _ & _ & _ & _ & _ & _ & Ev & _).
    assert (Nv : v <> []) by (subst v; discriminate).
    destruct fuel as [|fuel]; [reflexivity|]. cbn [lost_loop].
    pose proof (proj2 (proj2 (proj2 (all_reads cfg env p Hcfg Hsup Hp)) registry g Hg)) as R.
    subst text. rewrite <- !app_assoc.
    specialize (R v (S (List.length (b ++ v ++ match l with [] => [] | _ => [c_nl] end ++ v0 ++ rest))) b (match l with [] => [] | _ => [c_nl] end ++ v0 ++ rest) E Nv).
    destruct (b ++ v ++ match l with [] => [] | _ => [c_nl] end ++ v0 ++ rest) as [|x y] eqn:Ex.
    { exfalso. apply (f_equal (@List.length _)) in Ex. rewrite !app_length in Ex. destruct v; [congruence|cbn in Ex; lia]. }
    assert (R' : osl_generic_sread_one env registry (x :: y) = Ok (Some (reread_generic g), c_nl :: match l with [] => [] | _ => [c_nl] end ++ v0 ++ rest)).
    { unfold osl_generic_sread_one. apply R; [rewrite <- Ex; rewrite !app_length; lia|assumption]. }
    rewrite (generic_clean cfg env _ _ _ _ R' (solid_reread cfg p registry g Hg)). rewrite R'. cbn [app after].
    pose proof (IH fuel (c_nl :: match l with [] => [] | _ => [c_nl] end) v0 rest Hl E0) as I.
    cbn [app] in I. rewrite <- ?app_assoc in I. cbn [app] in I. apply I; try assumption.
    + apply bt_space; [reflexivity|]. destruct l; repeat constructor.
    + intros ->. repeat constructor.
Qed.
Lemma statement_clean registry k s n text b rest : statement_ok cfg p registry s -> one_line_names (Some n) ->
  statement_pprint_one k s n = Ok text -> short_lines text -> nls b ->
  lost_statement env registry p (File (b ++ text ++ rest) false) = [].
Proof.
  intros (Hd & Hc & Hl & Ha & Hx & He & Hu) Hn E Hs Hb. destruct s as [d c acc ext]. cbn [st_domain st_scattering st_access st_ext] in *.
  unfold statement_pprint_one in E. cbn [st_domain st_scattering st_access st_ext] in E.
  inv_bind E. pose proof (body_names cfg env p Hsup Hp _ _ _ _ He Hn E0) as Hn'. set (n' := with_iterators n v) in *. clearbody n'. clear v E0.
  inv_bind E. rename v into td, E0 into Ed. inv_bind E. rename v into tc, E0 into Ec. inv_bind E. rename v into ta, E0 into Ea.
  inv_bind E. rename v into te, E0 into Ee. apply Ok_inj in E.
  assert (T : printable_type TYPE_DOMAIN /\ printable_type TYPE_SCATTERING) by (unfold printable_type; cbn; tauto). destruct T as [T1 T2].
  pose proof (rel_saved cfg p Hcfg Hsup _ _ _ _ Hd T1 Hn' Ed) as Rd. pose proof (rel_saved cfg p Hcfg Hsup _ _ _ _ Hc T2 Hn' Ec) as Rc.
  pose proof (accesses_saved cfg p Hcfg Hsup _ _ _ Ha Hn' Ea) as Ra.
  set (nb := (if is_null d then 0 else 1) + (if is_null c then 0 else 1) + osl_relation_list_count acc) in *.
  assert (Nb : nb = zlength (opt d ++ opt c ++ acc)).
  { subst nb. rewrite count_all by (revert Ha; apply Forall_impl; unfold access_ok; tauto). rewrite !zlength_app'.
    destruct d, c; cbn [is_null opt]; unfold zlength; cbn [List.length]; lia. }
  assert (Hnb : c_int nb). { rewrite Nb. rewrite !zlength_app'. pose proof (opt_length d). pose proof (opt_length c).
    pose proof (zlength_nonneg (opt d)). pose proof (zlength_nonneg (opt c)). pose proof (zlength_nonneg acc). unfold c_int. lia. }
  set (R := [c_nl] ++ section_title k (lit ".1 Domain") ++ td ++ [c_nl] ++ section_title k (lit ".2 Scattering") ++ tc ++ [c_nl]
      ++ section_title k (lit ".3 Access") ++ ta ++ [c_nl]).
  set (B := section_title k (lit ".4 Statement Extensions") ++ ln (lit "# Number of Statement Extensions")).
  set (A := rule_title (lit "Statement " ++ print_Z k) ++ ln (lit "# Number of relations describing the statement:")).
  assert (Et : text = A ++ lnZ nb ++ R ++ B ++ lnZ (osl_generic_number ext) ++ te ++ [c_nl]).
  { subst text A R B. rewrite <- !app_assoc. reflexivity. }
  clear E. subst text.
  assert (HA : blank_lines A).
  { subst A. apply blank_lines_app; [apply bl_rule; apply no_nl_app; split; [apply no_nlb_ok; reflexivity|apply print_Z_no_nl]|].
    apply bl_lit. eexists. split; reflexivity. }
  assert (HB : blank_lines B).
  { subst B. apply blank_lines_app; [apply bl_section, no_nlb_ok; reflexivity|]. apply bl_lit. eexists. split; reflexivity. }
  assert (HR : rels_text cfg p (opt d ++ opt c ++ acc) R).
  { subst R. apply rt_blank; [apply bl_nl|]. apply rt_blank; [apply bl_section, no_nlb_ok; reflexivity|]. apply rels_app; [assumption|].
    apply rt_blank; [apply bl_nl|]. apply rt_blank; [apply bl_section, no_nlb_ok; reflexivity|]. apply rels_app; [assumption|].
    apply rt_blank; [apply bl_nl|]. apply rt_blank; [apply bl_section, no_nlb_ok; reflexivity|]. rewrite <- (app_nil_r acc). apply rels_app; [assumption|].
    rewrite <- (app_nil_r [c_nl]). apply rt_blank; [apply bl_nl|constructor]. }
  assert (SA : short_lines A) by now apply short_lines_left in Hs.
  assert (SR : short_lines R) by (apply short_lines_tail, short_lines_tail, short_lines_left in Hs; assumption).
  assert (SB : short_lines (R ++ B)).
  { apply short_lines_tail, short_lines_tail in Hs. rewrite app_assoc in Hs. now apply short_lines_left in Hs. }
  clearbody A B nb. unfold lost_statement, osl_relation_list_pread. rewrite <- !app_assoc.
  rewrite (app_assoc b A). rewrite file_int; [|apply blank_lines_app; [now apply nls_lines|assumption]|now apply short_nls|assumption]. cbn [bind].
  pose proof (zlength_nonneg (opt d ++ opt c ++ acc)) as Hz.
  destruct (Z.ltb_spec nb 0) as [X|_]; [lia|].
  assert (Hext : c_int (osl_generic_number ext)). { unfold osl_generic_number, zlength, c_int. unfold count_ok in Hx. lia. }
  assert (Fin : forall b', blank_lines b' -> short_lines (b' ++ B) ->
    match osl_util_read_int_f (File (b' ++ B ++ lnZ (osl_generic_number ext) ++ te ++ [c_nl] ++ rest) false) with
    | Ok (n0, f) => lost_extensions env (Z.to_nat n0) registry f
    | _ => []
    end = []).
  { intros b' H1 H2. rewrite (app_assoc b' B).
    rewrite file_int; [|now apply blank_lines_app|assumption|assumption].
    replace (Z.to_nat (osl_generic_number ext)) with (List.length ext) by (unfold osl_generic_number, zlength; lia).
    assert (Ee' : osl_generic_sprint ext = Ok te).
    { destruct ext as [|g ext]; [cbn in Ee; exact Ee|]. unfold osl_generic_number in Ee. rewrite zlength_cons in Ee. pose proof (zlength_nonneg ext).
      destruct (Z.ltb_spec 0 (1 + zlength ext)) as [_|Y]; [exact Ee|lia]. }
    apply (extensions_clean registry ext [] te ([c_nl] ++ rest)); try assumption. constructor. }
  destruct (Z.eqb_spec nb 0) as [Z0|Z0].
  - assert (L0 : opt d ++ opt c ++ acc = []). { destruct (opt d ++ opt c ++ acc) as [|x y] eqn:El; [reflexivity|]. rewrite zlength_cons in Nb. pose proof (zlength_nonneg y). lia. }
    cbn [after]. assert (BR : blank_lines R). { rewrite L0 in HR. now apply rels_nil in HR. }
    rewrite <- ?app_assoc. specialize (Fin R BR SB). rewrite <- ?app_assoc in Fin. exact Fin.
  - replace (Z.to_nat nb) with (List.length (opt d ++ opt c ++ acc)) by (rewrite Nb; unfold zlength; lia).
    destruct (read_rels cfg p _ _ HR [] (B ++ lnZ (osl_generic_number ext) ++ te ++ [c_nl] ++ rest) false) as (b' & H1 & H2 & H3); [constructor|assumption|].
    cbn [app] in H3. rewrite <- ?app_assoc in H3 |- *. cbn [app] in H3 |- *. rewrite H3. cbn [after].
    apply Fin; [assumption|]. apply short_blank; [assumption|assumption|now apply short_lines_tail in SB].
Qed.
Lemma statements_clean registry n : one_line_names (Some n) -> forall l k text b rest,
  Forall (statement_ok cfg p registry) l -> statements_pprint k l n = Ok text -> short_lines text -> nls b ->
  lost_statements env (List.length l) registry p (File (b ++ text ++ rest) false) = [].
Proof.
  intros Hn. induction l as [|s l IH]; intros k text b rest Hl E Hs Hb; cbn [statements_pprint] in E; [reflexivity|].
  inv_bind E. inv_bind E. apply Ok_inj in E. subst text. apply List.Forall_cons_iff in Hl. destruct Hl as [H1 Hl].
  assert (S1 : short_lines v) by now apply short_lines_left in Hs.
  destruct (statement_read cfg env p Hcfg Hsup Hp registry k s n v b (v0 ++ rest)) as (b1 & N1 & X1); try assumption.
  cbn [List.length lost_statements]. rewrite <- app_assoc. rewrite (statement_clean registry k s n v b (v0 ++ rest)) by assumption.
  rewrite X1. cbn [app after]. apply (IH (k + 1)); try assumption. now apply short_lines_tail in Hs.
Qed.
Lemma params_clean registry ps tp : (ps = [] \/ exists k d, ps = [Generic (Some (Iface (Some (lit "strings")) k)) (Some d)] /\
    generic_ok cfg p registry (Generic (Some (Iface (Some (lit "strings")) k)) (Some d))) -> osl_generic_sprint ps = Ok tp ->
  exists D b G o, osl_util_print_provided (osl_generic_has_URI ps (uri_of KStrings)) (lit "Parameters are") ++ tp = D ++ lnZ b ++ G /\
    blank_lines D /\ c_int b /\ node o = map reread_file ps /\
    forall rest, (if 0 <? b then osl_generic_read_one env (File (G ++ rest) false) registry else Ok (None, File (G ++ rest) false))
      = Ok (o, File (c_nl :: rest) false) /\ (if 0 <? b then lost_file_one env registry (File (G ++ rest) false) else []) = [].
Proof.
  intros [->|(k & d & -> & Hg)] E.
  - cbn in E. apply Ok_inj in E. subst tp. exists (ln (lit "# Parameters are not provided")), 0, [c_nl], None.
    split; [reflexivity|]. split; [apply bl_lit; eexists; split; reflexivity|]. split; [unfold c_int; lia|]. split; [reflexivity|]. intros rest. now split.
  - unfold osl_generic_sprint in E. cbn [generics_text] in E. inv_bind E. apply Ok_inj in E. rewrite !app_nil_r in E. subst v.
    exists (ln (lit "# Parameters are provided")), 1, tp, (Some (reread_file (Generic (Some (Iface (Some (lit "strings")) k)) (Some d)))).
    split; [reflexivity|]. split; [apply bl_lit; eexists; split; reflexivity|]. split; [unfold c_int; lia|]. split; [reflexivity|].
    intros rest. cbn [Z.ltb Z.compare]. assert (R : osl_generic_read_one env (File (tp ++ rest) false) registry = Ok (Some (reread_file (Generic (Some (Iface (Some (lit "strings")) k)) (Some d))), File (c_nl :: rest) false)).
    { apply (read_one_step cfg env p Hcfg Hsup Hp registry _ tp [] rest Hg E0). constructor. }
    split; [exact R|]. apply (file_one_clean cfg env _ _ _ _ R). exact (solid_file cfg p registry _ Hg).
Qed.
Lemma scop_clean registry s n text : scop_ok cfg p registry s -> one_line_names (Some n) ->
  scop_print_one s n = Ok text -> short_lines text ->
  exists body, text = c_nl :: start_tag uri_scop ++ body /\
    forall rest, lost_scop env registry p (File (body ++ rest) false) = [].
Proof.
  intros (Hv & Hr & (w & Hw & Hww) & Hc & Hco & Hps & Hns & Hst & (He1 & He2 & He3) & Ho) Hn E Hs.
  destruct s as [ver lang ctx ps stmts reg ext]. cbn [sc_version sc_registry sc_language sc_context sc_params sc_stmts sc_ext] in *. subst ver reg lang.
  unfold scop_print_one in E. cbn [sc_version sc_registry sc_language sc_context sc_params sc_stmts sc_ext] in E.
  inv_bind E. pose proof (params_ok cfg env p Hsup Hp _ _ _ _ Hps Hn E0) as Hn1. clear E0. inv_bind E. pose proof (arrays_names cfg env p Hsup Hp _ _ _ _ He2 Hn1 E0) as Hn2. clear E0.
  clear Hn Hn1 n v. rename v0 into n. inv_bind E. rename v into tc, E0 into Ec. inv_bind E. rename v into tp, E0 into Ep.
  inv_bind E. rename v into ts, E0 into Es. inv_bind E. rename v into te, E0 into Ee. apply Ok_inj in E.
  destruct (params_clean registry ps tp Hps Ep) as (D & b & G & o & EP & HD & Hb & Ho' & RP).
  set (A := [c_nl; c_nl] ++ rule_title (lit "Global") ++ ln (lit "# Language")).
  set (C := [c_nl] ++ ln (lit "# Context")). set (S := c_nl :: c_nl :: ln (lit "# Number of statements")).
  set (X := match ext with [] => [] | _ => rule_title (lit "Extensions") ++ te end) in *.
  exists (A ++ ln w ++ C ++ tc ++ [c_nl] ++ D ++ lnZ b ++ G ++ tl S ++ lnZ (osl_statement_number stmts) ++ [c_nl] ++ ts ++ X ++ [c_nl] ++ end_tag uri_scop ++ [c_nl; c_nl]).
  assert (Et : text = c_nl :: start_tag uri_scop ++ A ++ ln w ++ C ++ tc ++ [c_nl] ++ D ++ lnZ b ++ G ++ tl S ++ lnZ (osl_statement_number stmts) ++ [c_nl] ++ ts ++ X ++ [c_nl] ++ end_tag uri_scop ++ [c_nl; c_nl]).
  { subst text. rewrite (app_assoc D), (app_assoc (D ++ _)). rewrite <- (app_assoc D). rewrite <- EP. subst A C S. unfold start_tag, ln. rewrite <- !app_assoc. reflexivity. }
  split; [exact Et|]. intros rest. clear E EP.
  assert (HA : blank_lines A).
  { subst A. apply (blank_lines_app [c_nl; c_nl]); [apply nls_lines; repeat constructor|]. apply blank_lines_app; [apply bl_rule, no_nlb_ok; reflexivity|]. apply bl_lit. eexists. split; reflexivity. }
  assert (HC : blank_lines C).
  { subst C. apply blank_lines_app; [apply bl_nl|]. apply bl_lit. eexists. split; reflexivity. }
  assert (HS : blank_lines S).
  { subst S. apply (blank_lines_app [c_nl; c_nl]); [apply nls_lines; repeat constructor|]. apply bl_lit. eexists. split; reflexivity. }
  assert (S0 : short_lines S). { subst S. apply short_cons, short_cons. intros x y z Exy _. apply (f_equal (@List.length _)) in Exy. rewrite !app_length in Exy. cbn in Exy. lia. }
  subst text. change (c_nl :: start_tag uri_scop ++ ?q) with ((c_nl :: start_tag uri_scop) ++ q) in Hs. apply short_lines_tail in Hs.
  assert (SA : short_lines A) by (subst A; now apply short_lines_left in Hs).
  apply short_lines_tail in Hs. assert (Sw : (List.length w <= 2046)%nat) by apply Hww. apply short_lines_tail in Hs.
  assert (SC : short_lines C) by now apply short_lines_left in Hs.
  apply short_lines_tail in Hs. assert (Sc : short_lines tc) by now apply short_lines_left in Hs.
  apply short_lines_tail in Hs. assert (SD : short_lines ([c_nl] ++ D)) by (rewrite app_assoc in Hs; now apply short_lines_left in Hs).
  do 6 apply short_lines_tail in Hs. assert (St : short_lines ([c_nl] ++ ts)) by (rewrite app_assoc in Hs; now apply short_lines_left in Hs).
  apply short_lines_tail in St. clear Hs.
  assert (Hz : c_int (osl_statement_number stmts)). { unfold osl_statement_number, c_int. pose proof (zlength_nonneg stmts). lia. }
  assert (X1 : ~ occurs (end_tag uri_scop) X).
  { subst X. destruct ext as [|g ext]; [intros (a0 & b0 & Eab); destruct a0; discriminate|]. rewrite end_tag_shape. apply occurs_free.
    - clear. unfold rule_title. intros X. assert (Y : forallb (fun c => negb (ceqb c c_lt)) (lit "# =============================================== " ++ ln (lit "Extensions")) = true) by reflexivity.
      rewrite forallb_forall in Y. specialize (Y _ X). now rewrite ceqb_refl in Y.
    - exact (Ho _ Ee). }
  unfold lost_scop. rewrite <- !app_assoc.
  rewrite (file_strings A _ _ (Some (Some [w]), File (C ++ tc ++ [c_nl] ++ D ++ lnZ b ++ G ++ tl S ++ lnZ (osl_statement_number stmts) ++ [c_nl] ++ ts ++ X ++ [c_nl] ++ end_tag uri_scop ++ [c_nl; c_nl] ++ rest) false));
    [|assumption|assumption|].
  2:{ apply C28_file_roundtrip; [discriminate|constructor; [|constructor]; destruct Hww as (W1 & W2 & W3); split; [assumption|split; [lia|assumption]]| |].
    - unfold osl_strings_sprint. cbn [elems]. rewrite sprint_elems_ok by (constructor; [|constructor]; destruct Hww as (W1 & W2 & W3); split; [assumption|split; [lia|assumption]]). reflexivity.
    - unfold ln. rewrite app_length. cbn. lia. }
  cbn [after].
  erewrite (file_relation cfg C); [|assumption|assumption|].
  2:{ apply (C20_file_roundtrip cfg p TYPE_CONTEXT ctx (Some n)); try assumption; [apply Hco|unfold printable_type; cbn; tauto|apply Hco]. }
  cbn [after]. rewrite (app_assoc [c_nl] D). rewrite file_int; [|apply blank_lines_app; [apply bl_nl|assumption]|assumption|assumption].
  destruct (RP (tl S ++ lnZ (osl_statement_number stmts) ++ [c_nl] ++ ts ++ X ++ [c_nl] ++ end_tag uri_scop ++ [c_nl; c_nl] ++ rest)) as [RP1 RP2].
  rewrite RP2, RP1. cbn [app after]. change (c_nl :: tl S ++ ?q) with (S ++ q). rewrite file_int by assumption.
  replace (Z.to_nat (osl_statement_number stmts)) with (List.length stmts) by (unfold osl_statement_number, zlength; lia).
  destruct (statements_read cfg env p Hcfg Hsup Hp registry n Hn2 stmts 1 ts [c_nl] (X ++ [c_nl] ++ end_tag uri_scop ++ [c_nl; c_nl] ++ rest)) as (b' & N & R); try assumption; [repeat constructor|].
  pose proof (statements_clean registry n Hn2 stmts 1 ts [c_nl] (X ++ [c_nl] ++ end_tag uri_scop ++ [c_nl; c_nl] ++ rest) Hst Es St ltac:(repeat constructor)) as Cl.
  cbn [app] in Cl, R |- *. rewrite Cl, R. cbn [app after]. unfold lost_file, osl_util_read_uptoendtag_f. change (endtag_of uri_scop) with (end_tag uri_scop).
  destruct (C26_uptoflag_file (b' ++ X ++ [c_nl] ++ end_tag uri_scop ++ [c_nl; c_nl] ++ rest) (end_tag uri_scop)) as [U _]; [discriminate|vm_compute; intuition discriminate|].
  change (c_nl :: end_tag uri_scop ++ c_nl :: c_nl :: rest) with ([c_nl] ++ end_tag uri_scop ++ [c_nl; c_nl] ++ rest).
  rewrite (U (b' ++ X ++ [c_nl]) ([c_nl; c_nl] ++ rest)).
  2:{ replace (b' ++ X ++ [c_nl] ++ end_tag uri_scop ++ [c_nl; c_nl] ++ rest) with ((b' ++ X ++ [c_nl]) ++ end_tag uri_scop ++ [c_nl; c_nl] ++ rest) by now rewrite <- !app_assoc.
    rewrite end_tag_shape. apply first_flag; [apply tag_after, scop_tag|]. apply occurs_free; [now apply nls_no_lt|].
    apply occurs_end; [vm_compute; intuition discriminate|intros []|exact X1]. }
  unfold lost_generics. destruct ext as [|g ext].
  - subst X. cbn [app]. apply lost_loop_blank. apply nls_app; [assumption|repeat constructor].
  - subst X. rewrite app_assoc. rewrite app_assoc. rewrite <- (app_assoc _ te).
    apply (loop_clean registry (g :: ext)); try assumption.
    + apply blank_text_app; [now apply nls_blank|apply blank_rule, no_nlb_ok; reflexivity].
    + discriminate.
    + repeat constructor.
Qed.
Lemma scops_clean registry n : one_line_names (Some n) -> forall l text pre fuel, Forall (scop_ok cfg p registry) l ->
  print_all (fun s => scop_print_one s n) l = Ok text -> short_lines text -> ~ In c_lt pre ->
  lost_scops env fuel registry p (File (pre ++ text) false) = [].
Proof.
  intros Hn. induction l as [|s l IH]; intros text pre fuel Hl E Hs Hpre; cbn [print_all] in E; (destruct fuel as [|fuel]; [reflexivity|]); cbn [lost_scops].
  - apply Ok_inj in E. subst text. rewrite app_nil_r. now rewrite no_scop.
  - inv_bind E. inv_bind E. apply Ok_inj in E. subst text. apply List.Forall_cons_iff in Hl. destruct Hl as [H1 Hl].
    assert (S1 : short_lines v) by now apply short_lines_left in Hs.
    destruct (scop_read cfg env p Hcfg Hsup Hp registry s n v) as (body & Ev & R); try assumption.
    destruct (scop_clean registry s n v) as (body' & Ev' & C); try assumption.
    assert (body' = body) as ->. { rewrite Ev in Ev'. now injection Ev'. }
    replace (pre ++ v ++ v0) with ((pre ++ [c_nl]) ++ start_tag uri_scop ++ body ++ v0) by (subst v; rewrite <- !app_assoc; reflexivity).
    rewrite find_scop by (intros X; apply in_app_or in X; destruct X as [X|[X|[]]]; [auto|discriminate]). rewrite C, R. cbn [app after].
    apply (IH v0 [c_nl; c_nl]); [assumption|assumption|now apply short_lines_tail in Hs|intros [X|[X|[]]]; discriminate].
Qed.
(** The text of osl_scop_print has nothing to lose. *)
Lemma printed_clean registry l text : Forall (scop_ok cfg p registry) l -> osl_scop_print l = Ok text -> short_lines text ->
  lost_scop_read env registry p (File text false) = [].
Proof.
  intros Hl E Hs. unfold lost_scop_read. destruct l as [|s l].
  - cbn in E. apply Ok_inj in E. subst text. cbn [lost_scops]. rewrite no_scop; [reflexivity|]. vm_compute. intuition discriminate.
  - unfold osl_scop_print in E. set (L := s :: l) in *. destruct (osl_scop_integrity_check L) as [bb| | |] eqn:EI; try discriminate. cbn [bind] in E.
    inv_bind E. inv_bind E. apply Ok_inj in E. subst text.
    assert (Hn : one_line_names (Some v)). { unfold osl_scop_names in E0. inv_bind E0. now apply names_of_ok in E0. }
    set (pre := lit "# [File generated by the OpenScop Library " ++ release ++ ln (lit "]")).
    assert (Ex : lit "# [File generated by the OpenScop Library " ++ release ++ ln (lit "]") ++ v0 = pre ++ v0) by (subst pre; rewrite <- !app_assoc; reflexivity).
    rewrite Ex in Hs |- *. clear Ex.
    apply (scops_clean registry v Hn L v0 pre); [assumption|assumption|now apply short_lines_tail in Hs|subst pre; vm_compute; intuition discriminate].
Qed.
End P.
