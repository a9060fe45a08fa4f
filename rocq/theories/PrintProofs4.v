(** * PrintProofs4: the text of statements and scops *)
From Coq Require Import ZifyBool ZifyNat.
From Verif Require Import Base IntModel VectorModel RelationModel UtilModel StringsModel RelTextModel
  Spec RelSpec TextSpec ExprSpec LoopLemmas TextInt UtilProofs UtilProofs2 PropUtil RelTextProofs RelTextProofs2 RelTextProofs3 RelTextProofs4
  RelationProofs4 PropStrings PropRelText PropRelation2 PropExpr PropExpr2 ExtModel ExtSpec ExtProofs PropExt PropExt2 PropExt3 ScopModel ScopSpec PropScop
  SaveSpec SaveProofs SaveProofs2 SaveProofs3 SaveProofs4 PrintSpec PrintProofs PrintProofs2 PrintProofs3.

Lemma print2_ok v : c_int v -> no_nl (print2 v) /\ zlength (print2 v) <= 12.
Proof.
  intros H. pose proof (print_int_length v H) as L. unfold print2. pose proof (print_Z_no_nl v) as N. split.
  - apply no_nl_app. split; [|assumption]. destruct (print_Z v) as [|x [|y l]]; try apply no_nl_nil. apply no_nl_cons; [reflexivity|apply no_nl_nil].
  - rewrite zlength_app. assert (zlength (match print_Z v with [_] => [c_sp] | _ => [] end) <= 1); [|lia].
    destruct (print_Z v) as [|x [|y l]]; vm_compute; discriminate.
Qed.
Lemma lines_title n (w : str) : c_int n -> no_nl w -> zlength w <= 100 -> lines (section_title n w).
Proof.
  intros Hn Hw Hl. destruct (print2_ok n Hn) as [N L]. unfold section_title, ln. revert N L. generalize (print2 n). intros t2 N L. rewrite !app_assoc. apply lines_one.
  - repeat (apply no_nl_app; split); try assumption. apply no_nl_lit. reflexivity.
  - rewrite !zlength_app. change (zlength (lit "# ---------------------------------------------- ")) with 49. lia.
Qed.
Lemma lines_rule (w : str) : no_nl w -> zlength w <= 100 -> lines (rule_title w).
Proof.
  intros Hw Hl. unfold rule_title, ln. rewrite !app_assoc. apply lines_one.
  - repeat (apply no_nl_app; split); try assumption. apply no_nl_lit. reflexivity.
  - rewrite !zlength_app. change (zlength (lit "# =============================================== ")) with 50. lia.
Qed.
Ltac litline := apply lines_ln; [apply no_nl_lit; reflexivity|vm_compute; discriminate].

Section P.
Variable cfg : config.
Variable p m : Z.
Hypothesis Hcfg : config_ok cfg.
Hypothesis Hsup : supported cfg p.
Hypothesis Hm : 16 <= m.

Lemma good_lines n u : good_union cfg p m u -> named n u -> ready m n -> exists text, osl_relation_spprint u (Some n) = Ok text /\ lines text.
Proof.
  intros ((t & Hs) & Hf & _) [Hn Ha] [Hsh Hone]. apply (union_lines cfg p m Hcfg Hsup ltac:(lia) u n t); assumption.
Qed.
Lemma elts_lines n l : Forall (good_union cfg p m) l -> Forall (named n) l -> ready m n -> exists text, print_elts l (Some n) = Ok text /\ lines text.
Proof.
  intros Hg Hn Hr. induction Hg as [|u l Hu Hl IH]; cbn [print_elts]; [exists []; split; [reflexivity|constructor]|].
  apply Forall_cons_iff in Hn. destruct Hn as [Hn Hnl]. destruct (IH Hnl) as (t & E & Ht). destruct (good_lines n u Hu Hn Hr) as (t1 & E1 & H1). rewrite E.
  destruct u as [|r u].
  - cbn [bind]. exists t. split; [reflexivity|assumption].
  - rewrite E1. cbn [bind]. eexists. split; [reflexivity|]. apply lines_app; [|assumption]. apply lines_app; [assumption|]. destruct l; [constructor|apply lines_nl].
Qed.
Lemma list_lines n l : Forall (good_union cfg p m) l -> Forall (named n) l -> ready m n ->
  exists text, osl_relation_list_pprint_elts l (Some n) = Ok text /\ lines text.
Proof.
  intros Hg Hn Hr. unfold osl_relation_list_pprint_elts. destruct (0 <? _); [now apply elts_lines|]. eexists. split; [reflexivity|]. litline.
Qed.
Lemma count_small l : 0 <= osl_relation_list_count l <= zlength l.
Proof.
  unfold osl_relation_list_count. split; [apply zlength_nonneg|]. induction l as [|u l IH]; [reflexivity|]. cbn [filter].
  destruct u; rewrite ?zlength_cons in *; lia.
Qed.

Lemma body_ready n ep s : ready m n -> statement_ok cfg p default_registry s -> coherent_statement ep s ->
  Forall (named n) (relations_of_statement s) -> iterators_named m s ->
  exists b, body_of (st_ext s) = Ok b /\ (forall x, b = Some x -> body_ok x) /\ ready m (with_iterators n b) /\ Forall (named (with_iterators n b)) (relations_of_statement s).
Proof.
  intros [Hs Hone] (Hd & Hc & Hna & Ha & (Hce & Hge & _)) (Cd & Cc & Ca & Cb) Hn Hit.
  destruct (osl_generic_lookup (st_ext s) (uri_of KBody)) as [d|] eqn:L.
    2:{ exists None. unfold body_of. rewrite L. cbn [with_iterators]. split; [reflexivity|]. split; [discriminate|]. split; [split; assumption|assumption]. }
    pose proof (lookup_kind cfg p _ KBody _ Hge ltac:(cbn; tauto) L) as Hp. inversion Hp as [|b Hbo| | | | | | | | | | | | | | |]; subst.
    exists (Some b). unfold body_of. rewrite L. split; [reflexivity|]. split; [intros x Ex; apply Some_inj in Ex; now subst x|]. destruct Hbo as (its & e & Eb & _ & Hw & _). subst b. cbn [with_iterators].
    apply lookup_carries in L. destruct (Hit _ _ L) as [I1 I2]. apply Forall_cons_iff in I2. destruct I2 as [I2 I3]. cbn [elems] in *. split.
    - split.
      + apply short_split. cbn [n_params n_iters n_scatt n_locals n_arrays elems]. apply short_split in Hs. tauto.
      + destruct Hone as (O1 & O2 & O3 & O4 & O5). cbn [one_line_names n_params n_iters n_scatt n_locals n_arrays elems]. split; [assumption|]. split; [|auto].
        revert Hw. apply Forall_impl. intros w. apply word_no_nl.
    - unfold relations_of_statement in *. apply Forall_cons_iff in Hn. destruct Hn as [N1 Hn]. apply Forall_cons_iff in Hn. destruct Hn as [N2 N3].
      assert (Hok : forall u t, Forall (savable cfg p t) u -> t <> TYPE_DOMAIN -> t <> TYPE_CONTEXT -> Forall (fun r => nin r <= zlength its) u -> named n u ->
         named (Names (n_params n) (Some its) (n_scatt n) (n_locals n) (n_arrays n)) u).
      { intros u t Hsv T1 T2 Hi Hnu. apply named_iters; [|assumption]. rewrite Forall_forall in *. intros r Hr. split; [|exact (Hi r Hr)].
        destruct (Hsv r Hr) as (_ & _ & E & _). rewrite E. intros [X|X]; congruence. }
      constructor; [|constructor].
      + apply named_iters; [|assumption]. destruct (st_domain s) as [|r u] eqn:Ed; [constructor|].
        destruct (Cd r u eq_refl) as (_ & _ & _ & _ & _ & _ & Hnin & _ & _ & _ & Hall & _). assert (rtype r = TYPE_DOMAIN) as Et by (destruct Hd as [_ Hd]; apply Forall_inv in Hd; apply Hd).
        pose proof (Cb _ _ ltac:(discriminate) L) as Hlen. cbn [elems announced] in Hlen.
        revert Hall. apply Forall_impl. intros x (X1 & X2 & _). cbn [elems]. unfold zlength. rewrite X1, X2. rewrite (Hnin (or_introl Et)). lia.
      + apply (Hok _ TYPE_SCATTERING); try assumption; try discriminate. apply Hc.
      + rewrite Forall_forall in *. intros u Hu. destruct (Ha u Hu) as (_ & t & Ht & _ & Hsv).
        apply (Hok u t); [assumption| | |apply I3; assumption|apply N3; assumption]; intros ->; cbn in Ht; unfold TYPE_READ, TYPE_WRITE, TYPE_MAY_WRITE, TYPE_DOMAIN, TYPE_CONTEXT in Ht; lia.
Qed.
Lemma statement_total n number ep s : c_int number -> ready m n -> statement_ok cfg p default_registry s -> coherent_statement ep s ->
  Forall (good_union cfg p m) (relations_of_statement s) -> Forall (named n) (relations_of_statement s) ->
  iterators_named m s -> Forall (extension_fits m) (st_ext s) ->
  exists text, statement_pprint_one number s n = Ok text /\ lines text.
Proof.
  intros Hnum Hr0 Hok Hco Hg Hn Hit Hf. destruct (body_ready n ep s Hr0 Hok Hco Hn Hit) as (b & Eb & _ & Hr & Hn').
  destruct Hr0 as [Hs Hone], Hok as (Hd & Hc & Hna & Ha & (Hce & Hge & _)), Hco as (Cd & Cc & Ca & Cb).
  unfold statement_pprint_one. rewrite Eb. cbn [bind]. set (n' := with_iterators n b) in *. clearbody n'. clear Eb.
  unfold relations_of_statement in Hg, Hn'. apply Forall_cons_iff in Hg, Hn'. destruct Hg as [G1 Hg], Hn' as [N1 Hn']. apply Forall_cons_iff in Hg, Hn'. destruct Hg as [G2 Hg], Hn' as [N2 Hn'].
  destruct (good_lines n' _ G1 N1 Hr) as (td & -> & Ld). destruct (good_lines n' _ G2 N2 Hr) as (tc & -> & Lc). destruct (list_lines n' _ Hg Hn' Hr) as (ta & -> & La). cbn [bind].
  destruct (generics_lines cfg p m Hcfg Hsup Hm _ Hge Hf) as (te & Ee & Le).
  assert (He : exists te, (if 0 <? osl_generic_number (st_ext s) then osl_generic_sprint (st_ext s) else Ok []) = Ok te /\ lines te).
  { destruct (0 <? _); [eauto|]. exists []. split; [reflexivity|constructor]. }
  destruct He as (te' & -> & Le'). cbn [bind]. eexists. split; [reflexivity|].
  assert (Hnb : c_int ((if is_null (st_domain s) then 0 else 1) + (if is_null (st_scattering s) then 0 else 1) + osl_relation_list_count (st_access s))).
  { pose proof (count_small (st_access s)). unfold c_int. destruct (is_null (st_domain s)), (is_null (st_scattering s)); lia. }
  assert (Hne : c_int (osl_generic_number (st_ext s))).
  { unfold osl_generic_number, c_int. pose proof (zlength_nonneg (st_ext s)). unfold count_ok, zlength in *. lia. }
  pose proof (print_int_length number Hnum) as Ln.
  repeat (apply lines_app; [first [assumption | apply lines_nl | now apply lines_lnZ | litline
    | (apply lines_title; [assumption|apply no_nl_lit; reflexivity|vm_compute; discriminate])
    | (apply lines_rule; [apply no_nl_app; split; [apply no_nl_lit; reflexivity|apply print_Z_no_nl]|rewrite zlength_app; change (zlength (lit "Statement ")) with 10; lia]) ]|]).
  apply lines_nl.
Qed.
Lemma statements_total n ep : ready m n -> forall l number, 0 <= number -> number + zlength l <= 2 ^ 31 - 1 + 1 ->
  Forall (statement_ok cfg p default_registry) l -> Forall (coherent_statement ep) l ->
  Forall (good_union cfg p m) (relations_of_statements l) -> Forall (named n) (relations_of_statements l) ->
  Forall (iterators_named m) l -> Forall (fun st => Forall (extension_fits m) (st_ext st)) l ->
  exists text, statements_pprint number l n = Ok text /\ lines text.
Proof.
  intros Hr. induction l as [|s l IH]; intros number H0 H1 Hok Hco Hg Hn Hi Hf; cbn [statements_pprint]; [exists []; split; [reflexivity|constructor]|].
  rewrite zlength_cons in H1. pose proof (zlength_nonneg l). apply Forall_cons_iff in Hok, Hco, Hi, Hf. destruct Hok, Hco, Hi, Hf.
  cbn [relations_of_statements flat_map] in Hg, Hn. apply Forall_app in Hg, Hn. destruct Hg, Hn.
  destruct (statement_total n number ep s) as (t & -> & Ht); try assumption; [unfold c_int; lia|]. cbn [bind].
  destruct (IH (number + 1)) as (t' & -> & Ht'); try assumption; try lia. cbn [bind]. eexists. split; [reflexivity|]. now apply lines_app.
Qed.
Lemma scop_total n s : ready m n -> scop_ok cfg p default_registry s -> coherent_scop s -> scop_fits m s ->
  Forall (named n) (relations_of_scop s) -> exists text, scop_print_one s n = Ok text /\ lines text.
Proof.
  intros Hr Hok Hco (F1 & F2 & F3 & F4 & F5 & F6 & F7) Hn.
  pose proof (scop_unions cfg p m _ s Hok Hco F1) as Hg.
  destruct (params_total cfg p m n s Hr Hok Hco F2 Hn) as (n1 & E1 & Hr1 & Hn1).
  destruct (arrays_total cfg p m Hm n1 s Hr1 Hok Hco F4 Hg Hn1) as (n2 & E2 & Hr2 & Hn2).
  unfold scop_print_one. rewrite E1. cbn [bind]. rewrite E2. cbn [bind]. clear E1 E2 Hn Hn1 Hr Hr1 n n1. rename n2 into n, Hr2 into Hr, Hn2 into Hn.
  destruct Hok as (_ & _ & (w & Hw & Hww) & _ & _ & Hps & Hns & Hst & (Hce & Hge & _) & _). destruct Hco as [C1 C2].
  unfold relations_of_scop in Hg, Hn. apply Forall_cons_iff in Hg, Hn. destruct Hg as [G1 Hg], Hn as [N1 Hn].
  destruct (good_lines n _ G1 N1 Hr) as (tc & -> & Lc). cbn [bind].
  assert (Hgp : Forall (generic_ok cfg p default_registry) (sc_params s)).
  { destruct Hps as [-> | (k & d & -> & Hgg)]; [constructor|]. constructor; [assumption|constructor]. }
  destruct (generics_lines cfg p m Hcfg Hsup Hm _ Hgp F5) as (tp & -> & Lp). cbn [bind].
  unfold osl_statement_pprint. cbn [bind].
  destruct (statements_total n _ Hr (sc_stmts s) 1 ltac:(lia) ltac:(lia) Hst C2 Hg Hn F3 F6) as (ts & -> & Ls). cbn [bind].
  destruct (generics_lines cfg p m Hcfg Hsup Hm _ Hge F7) as (te & -> & Le). cbn [bind].
  eexists. split; [reflexivity|]. rewrite Hw. cbn [pr].
  assert (Hz : c_int (osl_statement_number (sc_stmts s))). { unfold osl_statement_number, c_int. pose proof (zlength_nonneg (sc_stmts s)). lia. }
  assert (Hlang : lines (ln w)). { apply lines_ln; [now apply word_no_nl in Hww|]. destruct Hww as (_ & L & _). unfold zlength. lia. }
  assert (Hprov : lines (osl_util_print_provided (osl_generic_has_URI (sc_params s) (uri_of KStrings)) (lit "Parameters are"))).
  { destruct (osl_generic_has_URI _ _); vm_compute osl_util_print_provided.
    - apply (lines_app (ln (lit "# Parameters are provided")) (lit "1" ++ [c_nl])); [litline|]. apply lines_one; [apply no_nl_lit; reflexivity|vm_compute; discriminate].
    - apply (lines_app (ln (lit "# Parameters are not provided")) (lit "0" ++ [c_nl] ++ [c_nl])); [litline|]. apply (lines_app (lit "0" ++ [c_nl]) [c_nl]); [|apply lines_nl]. apply lines_one; [apply no_nl_lit; reflexivity|vm_compute; discriminate]. }
  assert (Hx : lines (match sc_ext s with [] => [] | _ => rule_title (lit "Extensions") ++ te end)).
  { destruct (sc_ext s); [constructor|]. apply lines_app; [|assumption]. apply lines_rule; [apply no_nl_lit; reflexivity|vm_compute; discriminate]. }
  repeat first [ apply lines_nl | (apply lines_nl_cons) | (apply lines_app; [first [assumption | apply lines_nl | now apply lines_lnZ | litline
    | (apply lines_ln; [apply no_nlb_ok; reflexivity|vm_compute; discriminate]) | (apply lines_rule; [apply no_nl_lit; reflexivity|vm_compute; discriminate]) ]|]) ].
Qed.
End P.
