(** * ScoplibProofs4: every scop that fits is printed in the SCoPLib format (for C49) *)
From Coq Require Import ZifyBool ZifyNat.
From Verif Require Import Base IntModel VectorModel RelationModel UtilModel StringsModel RelTextModel ExtModel ScopModel CloneModel
  Spec RelSpec TextSpec ExprSpec LoopLemmas IntProofs TextInt VectorProofs RelationProofs RelationProofs4 UtilProofs RelTextProofs PropStrings RelTextProofs2
  PropRelText PropExpr PropExpr2 ExtSpec ExtProofs PropExt PropExt2 PropExt3 SaveSpec SaveProofs3 SaveProofs4 ScopSpec PropScop CloneSpec
  PrintSpec PrintProofs PrintProofs2 PrintProofs3 PrintProofs4 PropScoplib ScoplibModel ScoplibSpec ScoplibProofs ScoplibProofs2 ScoplibProofs3.

Section P.
Context {cfg : config}.
Hypothesis Hcfg : config_ok cfg.
Variables (K M : Z).
Hypothesis HK : 1 <= K.
Hypothesis HM : 6 <= M.
Hypothesis HB : K + M + 3 < 2048.

Lemma number_total p v : supported cfg p -> - 10 ^ K < v < 10 ^ K -> exists t, scoplib_number p v = Ok t.
Proof.
  intros Hp Hv. unfold scoplib_number.
  assert (E : osl_int_sprint p v = Ok (pad4 (print_Z v))).
  { unfold osl_int_sprint, pswitch. destruct (supported_cases _ Hp) as [[-> _]|[-> [-> _]]]; reflexivity. }
  rewrite E. cbn [bind]. pose proof (print_length K HK v Hv) as Hl. pose proof (pad4_length (print_Z v)) as H4.
  rewrite buf_store_ok by lia. eauto.
Qed.
Lemma cell_ok r i j : wf_rel cfg r -> Forall (Forall (@coef_ok cfg K (rprec r))) (rm r) -> 0 <= i < nrows r -> 0 <= j < ncols r ->
  exists x t, mget (rm r) i j = Ok x /\ scoplib_number (rprec r) x = Ok t.
Proof.
  intros W Hco Hi Hj. pose proof W as (Hp & HR & HC & _). pose proof (wf_mat r W) as Mt. rewrite (mget_ok _ _ _ _ _ Mt) by lia.
  assert (Hv : @coef_ok cfg K (rprec r) (cell (rm r) i j)).
  { pose proof (mat_row _ _ _ i Mt Hi ltac:(lia)) as Hlen. pose proof Mt as (_ & _ & _ & Hm). destruct Hm as [Hm _]; [lia|lia|].
    unfold cell. apply (Forall_at (@coef_ok cfg K (rprec r))); [|lia].
    apply (Forall_at (Forall (@coef_ok cfg K (rprec r))) [] (rm r) i Hco). lia. }
  destruct Hv as (Hv1 & _). destruct (number_total _ _ Hp Hv1) as [t E]. eauto.
Qed.

Lemma scells_total access r i lo hi zero : wf_rel cfg r -> Forall (Forall (@coef_ok cfg K (rprec r))) (rm r) -> 0 <= i < nrows r ->
  0 <= lo -> hi <= ncols r -> exists t, scoplib_cells access r i lo hi zero = Ok t.
Proof.
  intros W Hco Hi Hlo Hhi. unfold scoplib_cells. destruct (Z.leb_spec lo hi) as [Hle|Hgt]; [|rewrite cfor_empty by lia; eauto].
  match goal with |- exists t, cfor lo hi ?f [] = _ => destruct (cfor_inv (fun _ _ => True) lo hi f []) as (t & E & _); [assumption|exact I| |eauto] end.
  intros j s Hj _. cbv beta. destruct (access && (nrows r =? 1) && (j =? ncols r - 1)); [eauto|].
  destruct (cell_ok r i j W Hco Hi ltac:(lia)) as (x & t & -> & E). cbn [bind]. rewrite E. cbn [bind]. eauto.
Qed.
Lemma srow_total access fake start r i : wf_rel cfg r -> Forall (Forall (@coef_ok cfg K (rprec r))) (rm r) -> coherent_dims r -> 0 <= i < nrows r ->
  exists t, scoplib_row access fake start r i = Ok t.
Proof.
  intros W Hco (Ho & Hi & Hl & Hp & Hc & _) Hr. unfold scoplib_row.
  assert (F : exists first, (if negb access then x <- mget (rm r) i 0 ;; scoplib_number (rprec r) x
            else if i =? start then x <- mget (rm r) 0 (ncols r - 1) ;; scoplib_number (rprec r) x
            else Ok zero_cell) = Ok first).
  { destruct access; cbn [negb].
    - destruct (i =? start); [|eauto]. destruct (cell_ok r 0 (ncols r - 1) W Hco ltac:(lia) ltac:(lia)) as (x & t & -> & E). cbn [bind]. eauto.
    - destruct (cell_ok r i 0 W Hco Hr ltac:(lia)) as (x & t & -> & E). cbn [bind]. eauto. }
  destruct F as (first & ->). cbn [bind]. destruct (rtype r =? TYPE_DOMAIN).
  - destruct (scells_total false r i 1 (1 + nout r) [] W Hco Hr ltac:(lia) ltac:(lia)) as (a & ->). cbn [bind].
    destruct (scells_total false r i (1 + nout r + nin r) (ncols r) [] W Hco Hr ltac:(lia) ltac:(lia)) as (b & ->). cbn [bind]. eauto.
  - destruct (scells_total access r i (1 + nout r) (1 + nout r + nin r) zero_cell W Hco Hr ltac:(lia) ltac:(lia)) as (a & ->). cbn [bind].
    destruct (scells_total access r i (Z.max (1 + nout r) (1 + nout r + nin r)) (ncols r) (lit "  0 ") W Hco Hr ltac:(lia) ltac:(lia)) as (b & ->). cbn [bind]. eauto.
Qed.
Lemma fake_line_total r b : exists x, fake_line r b = Ok x.
Proof.
  unfold fake_line. destruct (Z.leb_spec 0 (ncols r)) as [H|H]; [|rewrite cfor_empty by lia; eauto].
  match goal with |- exists t, cfor ?lo ?hi ?f [] = _ => destruct (cfor_inv (fun _ _ => True) lo hi f []) as (t & E & _); [assumption|exact I| |eauto] end.
  intros j s _ _. cbv beta. eauto.
Qed.
Lemma srows_total access fake start u r names arrays : wf_rel cfg r -> Forall (Forall (@coef_ok cfg K (rprec r))) (rm r) -> coherent_dims r ->
  (forall i, 0 <= i < nrows r -> exists c, osl_relation_sprint_comment u r i names arrays = Ok c) ->
  (fake && (rtype r =? TYPE_SCATTERING) = true -> nrows r <= 2) ->
  forall fuel i, 0 <= i -> (Z.to_nat (nrows r - i) <= fuel)%nat -> exists t, scoplib_rows fuel access fake start u r i names arrays = Ok t.
Proof.
  intros W Hco Hd Hc Hf. induction fuel as [|k IH]; intros i Hi Hk; cbn [scoplib_rows]; (destruct (Z.ltb_spec i (nrows r)) as [Hlt|Hge]; [|eauto]); [lia|].
  destruct (srow_total access fake start r i W Hco Hd ltac:(lia)) as (t & ->). cbn [bind].
  destruct (Hc i ltac:(lia)) as (c & ->). cbn [bind]. destruct (fake && (rtype r =? TYPE_SCATTERING)).
  - destruct (fake_line_total r true) as (a & ->). cbn [bind]. destruct (fake_line_total r false) as (b & ->). cbn [bind].
    destruct (IH (2 + 1) ltac:(lia) ltac:(specialize (Hf eq_refl); lia)) as (x & ->). cbn [bind]. eauto.
  - cbn [bind]. destruct (IH (i + 1) ltac:(lia) ltac:(lia)) as (x & ->). cbn [bind]. eauto.
Qed.
Lemma column_fields_scoplib_length r (names : list str) : forall i, zlength (column_fields_scoplib r i names) <= 6 * zlength names.
Proof.
  induction names as [|s names IH]; intros i; [cbn; lia|].
  cbn [column_fields_scoplib]. rewrite zlength_app, zlength_cons. specialize (IH (i + 1)). pose proof (column_field_length s) as H.
  match goal with |- zlength (if ?b then _ else _) + _ <= _ => destruct b end; [|rewrite zlength_nil; lia].
  rewrite zlength_app. match goal with |- context [zlength (if ?b then _ else _)] => assert (zlength (if b then lit "|" else lit " ") = 1) by (destruct b; reflexivity) end. lia.
Qed.
Lemma spart_total nb access nth fake u r part n : part_ready K M u r n -> short_names M n -> one_line_names (Some n) ->
  (fake = true -> rtype r = TYPE_SCATTERING -> nrows r <= 2) ->
  exists t, scoplib_part (cfg := cfg) nb access nth fake u r part n = Ok t.
Proof.
  intros (W & Hd & Hco & Hdim & Hen & Hw & Hid) Hs Hone Hf.
  pose proof W as (_ & HR & HC & _). assert (Hnc : ncols r < 2048) by nia.
  destruct (column_names_short M ltac:(lia) r n Hdim Hs Hnc HM Hen) as [Hsn Hln].
  unfold scoplib_part. rewrite (C43_names r n Hdim Hen). cbn [bind].
  unfold short_names in Hs. rewrite !Forall_app in Hs. destruct Hs as (_ & _ & _ & _ & S5).
  assert (Hrows : forall start, 0 <= start -> exists t, scoplib_rows (S (Z.to_nat (nrows r))) access fake start u r start (column_names r n) (n_arrays n) = Ok t).
  { intros start H0. apply srows_total; try assumption; [| |lia].
    - intros i Hi. destruct Hdim as (Ho & Hii & Hl & Hp & Hc' & _).
      destruct (comment_total Hcfg K M HK ltac:(lia) HB u r i (column_names r n) (n_arrays n) W Hi Hco ltac:(lia) Hln Hsn S5 ltac:(unfold B; nia) Hid) as (c & Ec & _). eauto.
    - intros E. apply andb_true_iff in E. destruct E as [E1 E2]. apply Hf; [assumption|lia]. }
  destruct access; cbn [negb].
  - cbn [bind]. destruct (Hrows (if nrows r =? 1 then 0 else 1)) as (t & E); [destruct (_ =? _); lia|]. rewrite E. cbn [bind]. eauto.
  - assert (Hc : exists c, (if 0 <? nrows r then c <- osl_relation_column_string_scoplib r (column_names r n) ;; Ok (snp c) else Ok []) = Ok c).
    { destruct (0 <? nrows r); [|eauto]. unfold osl_relation_column_string_scoplib. pose proof (column_fields_scoplib_length r (column_names r n) 0) as X.
      rewrite buf_store_ok; [cbn [bind]; eauto|]. rewrite !zlength_app, zlength_one. change (zlength (lit "#")) with 1. nia. }
    destruct Hc as (c & ->). cbn [bind]. destruct (Hrows 0 ltac:(lia)) as (t & ->). cbn [bind]. eauto.
Qed.
Lemma sparts_total nb access nth fake n : short_names M n -> one_line_names (Some n) -> forall u part,
  (forall pre r post, u = pre ++ r :: post -> part_ready K M (r :: post) r n) ->
  (fake = true -> Forall (fun r => rtype r = TYPE_SCATTERING -> nrows r <= 2) u) ->
  exists t, scoplib_parts (cfg := cfg) nb access nth fake u part n = Ok t.
Proof.
  intros Hs Hone. induction u as [|r u IH]; intros part Hr Hf; cbn [scoplib_parts]; [eauto|].
  destruct (spart_total nb access nth fake (r :: u) r part n (Hr [] r u eq_refl) Hs Hone) as (a & ->).
  { intros F. specialize (Hf F). now apply Forall_inv in Hf. }
  cbn [bind]. destruct (IH (part + 1)) as (b & ->); [| |cbn [bind]; eauto].
  - intros pre r' post ->. apply (Hr (r :: pre) r' post). reflexivity.
  - intros F. specialize (Hf F). now apply Forall_inv_tail in Hf.
Qed.
Lemma sspprint_total u n nth fake : short_names M n -> one_line_names (Some n) ->
  (forall pre r post, u = pre ++ r :: post -> part_ready K M (r :: post) r n) ->
  (fake = true -> Forall (fun r => rtype r = TYPE_SCATTERING -> nrows r <= 2) u) ->
  exists t, osl_relation_spprint_scoplib (cfg := cfg) u (Some n) nth fake = Ok t.
Proof.
  intros Hs Hone Hr Hf. unfold osl_relation_spprint_scoplib, osl_relation_spprint_polylib_scoplib. destruct u as [|r u]; [eauto|]. cbn [bind].
  match goal with |- context [scoplib_parts ?nb ?a nth fake _ 1 n] => destruct (sparts_total nb a nth fake n Hs Hone (r :: u) 1 Hr Hf) as (t & ->) end.
  cbn [bind]. eauto.
Qed.
End P.

Section Q.
Variable cfg : config.
Variable p m : Z.
Hypothesis Hcfg : config_ok cfg.
Hypothesis Hsup : supported cfg p.
Hypothesis Hm : 16 <= m.

Lemma good_scoplib n u nth fake : good_union cfg p m u -> named n u -> ready m n ->
  (fake = true -> Forall (fun r => rtype r = TYPE_SCATTERING -> nrows r <= 2) u) ->
  exists text, osl_relation_spprint_scoplib u (Some n) nth fake = Ok text.
Proof.
  intros ((t & Hsv) & Hf & _) [Hen Harr] [Hs Hone] Hfk. destruct u as [|r0 u0]; [exists []; reflexivity|]. set (u := r0 :: u0) in *.
  assert (Hu : Forall (printable cfg 10 m) u) by now apply (union_printable cfg p t).
  assert (W : wf_union cfg u) by (eapply Forall_impl; [|exact Hu]; intros r (W & _); exact W).
  assert (Hall : forall r r', In r u -> In r' u -> RelSpec.access_type (rtype r) -> RelSpec.access_type (rtype r')).
  { rewrite Forall_forall in Hsv. intros r r' H1 H2. destruct (Hsv r H1) as (_ & _ & -> & _), (Hsv r' H2) as (_ & _ & -> & _). auto. }
  assert (HB : 10 + m + 3 < 2048).
  { subst u. apply Forall_inv in Hu. destruct Hu as (W' & (Ho & Hi & Hl & Hpp & Hc & _) & _ & _ & Hw). nia. }
  apply (sspprint_total Hcfg 10 m ltac:(lia) ltac:(lia) HB u n nth fake Hs Hone); [|assumption].
  intros pre r post E. assert (Hin : In r u) by (rewrite E; apply in_or_app; right; now left).
  rewrite Forall_forall in Hu, Hen. specialize (Hu r Hin). specialize (Hen r Hin).
  split; [apply Hu|]. split; [apply (printable_dims cfg 10 m); [lia|lia|assumption]|]. split; [now apply (printable_coefs cfg 10 m)|].
  split; [apply Hu|]. split; [assumption|]. split; [apply Hu|].
  intros Hacc. eapply access_id; eauto.
Qed.

Lemma access_texts_total t n fake l : Forall (good_union cfg p m) l -> Forall (named n) l -> ready m n ->
  Forall (Forall (fun r => rtype r <> TYPE_SCATTERING)) l -> exists text, access_texts t l (Some n) fake = Ok text.
Proof.
  intros Hg Hn Hr Ht. unfold access_texts. induction l as [|u l IH]; cbn [print_all]; [eauto|].
  apply Forall_cons_iff in Hg, Hn, Ht. destruct Hg as [G1 G2], Hn as [N1 N2], Ht as [T1 T2]. destruct (IH G2 N2 T2) as (b & Eb).
  destruct (good_scoplib n u false fake G1 N1 Hr) as (a & Ea).
  { intros _. revert T1. apply Forall_impl. intros r H X. contradiction. }
  destruct (has_type t u); [rewrite Ea|]; cbn [bind]; rewrite Eb; cbn [bind]; eauto.
Qed.
Lemma accesses_total n fake l : Forall (good_union cfg p m) l -> Forall (named n) l -> ready m n ->
  Forall (Forall (fun r => rtype r <> TYPE_SCATTERING)) l -> exists text, osl_relation_list_pprint_access_array_scoplib l (Some n) fake = Ok text.
Proof.
  intros Hg Hn Hr Ht. unfold osl_relation_list_pprint_access_array_scoplib. destruct (0 <? _); [|eauto].
  destruct (access_sizes TYPE_READ l 0 0) as [rr cr]. destruct (access_sizes TYPE_WRITE l 0 0) as [rw cw]. destruct (access_sizes TYPE_MAY_WRITE l 0 0) as [rmw cm].
  destruct (access_texts_total TYPE_READ n fake l Hg Hn Hr Ht) as (a & ->). cbn [bind].
  destruct (access_texts_total TYPE_WRITE n fake l Hg Hn Hr Ht) as (b & ->). cbn [bind].
  destruct (access_texts_total TYPE_MAY_WRITE n fake l Hg Hn Hr Ht) as (c & Ec). rewrite Ec. destruct (0 <? rmw); cbn [bind]; eauto.
Qed.
Lemma body_scoplib_total b : body_ok b -> exists t, osl_body_print_scoplib (Some b) = Ok t.
Proof.
  intros (its & e & -> & Hc & Hi & He). unfold osl_body_print_scoplib, osl_strings_sprint. cbn [bo_iterators bo_expression osl_strings_size elems sprint_elems].
  rewrite sprint_elems_ok by now apply plain_of_words.
  destruct He as (_ & _ & Hel & _). rewrite (store_ok e) by lia. cbn [bind].
  destruct (0 <? zlength its); cbn [bind]; eauto.
Qed.
Lemma sstatement_total n number ep s : ready m n -> SaveSpec.statement_ok cfg p default_registry s -> coherent_statement ep s ->
  Forall (good_union cfg p m) (relations_of_statement s) -> Forall (named n) (relations_of_statement s) -> iterators_named m s ->
  st_domain s <> [] -> (exists r, st_scattering s = [r]) ->
  exists text, statement_pprint_scoplib_one number s n = Ok text.
Proof.
  intros Hr0 Hok Hco Hg Hn Hit Hdom (sc & Esc). destruct (body_ready cfg p m n ep s Hr0 Hok Hco Hn Hit) as (b & Eb & Hb & Hr & Hn').
  unfold statement_pprint_scoplib_one. rewrite Eb. cbn [bind]. set (n' := with_iterators n b) in *. clearbody n'.
  destruct Hok as ([_ Hd] & [_ Hc] & _ & Ha & _).
  unfold relations_of_statement in Hg, Hn'. apply Forall_cons_iff in Hg, Hn'. destruct Hg as [G1 Hg], Hn' as [N1 Hn']. apply Forall_cons_iff in Hg, Hn'. destruct Hg as [G2 Hg], Hn' as [N2 Hn'].
  destruct (st_domain s) as [|d dr] eqn:Ed; [congruence|]. rewrite Esc in *.
  assert (HF : exists fake, (if nrows d =? 0 then Ok (nrows sc =? 1) else Ok false) = Ok fake /\ (fake = true -> nrows sc <= 2)).
  { destruct (nrows d =? 0); eexists; (split; [reflexivity|]); [lia|discriminate]. }
  destruct HF as (fake & -> & Hfk). cbn [bind].
  destruct (good_scoplib n' (d :: dr) true fake G1 N1 Hr) as (td & ->).
  { intros _. revert Hd. apply Forall_impl. intros r (_ & _ & E & _) X. rewrite E in X. discriminate. }
  cbn [bind]. destruct (good_scoplib n' [sc] false fake G2 N2 Hr) as (tc & ->).
  { intros F. constructor; [|constructor]. intros _. now apply Hfk. }
  cbn [bind]. destruct (accesses_total n' fake (st_access s) Hg Hn' Hr) as (ta & ->).
  { revert Ha. apply Forall_impl. intros u (_ & t & Ht & _ & Hsv). revert Hsv. apply Forall_impl. intros r (_ & _ & E & _). rewrite E.
    cbn in Ht. unfold TYPE_READ, TYPE_WRITE, TYPE_MAY_WRITE, TYPE_SCATTERING in *. lia. }
  cbn [bind]. destruct b as [b|]; [|cbn [bind]; eauto]. destruct (body_scoplib_total b (Hb b eq_refl)) as (te & ->). cbn [bind]. eauto.
Qed.
Lemma sstatements_total n ep : ready m n -> forall l number,
  Forall (SaveSpec.statement_ok cfg p default_registry) l -> Forall (coherent_statement ep) l ->
  Forall (good_union cfg p m) (relations_of_statements l) -> Forall (named n) (relations_of_statements l) ->
  Forall (iterators_named m) l -> Forall (fun s => st_domain s <> [] /\ exists r, st_scattering s = [r]) l ->
  exists text, statements_pprint_scoplib number l n = Ok text.
Proof.
  intros Hr. induction l as [|s l IH]; intros number Hok Hco Hg Hn Hi Hf; cbn [statements_pprint_scoplib]; [eauto|].
  apply Forall_cons_iff in Hok, Hco, Hi, Hf. destruct Hok, Hco, Hi, Hf as [[? ?] ?].
  cbn [relations_of_statements flat_map] in Hg, Hn. apply Forall_app in Hg, Hn. destruct Hg, Hn.
  destruct (sstatement_total n number ep s) as (t & ->); try assumption. cbn [bind].
  destruct (IH (number + 1)) as (t' & ->); try assumption. cbn [bind]. eauto.
Qed.
Lemma options_total l : Forall (generic_ok cfg p default_registry) l -> exists t, osl_generic_print_options_scoplib l = Ok t.
Proof.
  intros Hl. unfold osl_generic_print_options_scoplib. destruct (osl_generic_lookup l (uri_of KArrays)) as [d|] eqn:L; [|cbn; eauto].
  pose proof (lookup_kind cfg p _ KArrays _ Hl ltac:(cbn; tauto) L) as Hp. inversion Hp as [| | | | | | |a Ha| | | | | | | | |]; subst.
  destruct (C32_roundtrip a Ha) as (t & -> & _). cbn [bind]. eauto.
Qed.
Lemma sscop_total n s : ready m n -> scop_ok cfg p default_registry s -> coherent_scop s -> scop_fits m s ->
  Forall (named n) (relations_of_scop s) -> Forall (fun s => st_domain s <> [] /\ exists r, st_scattering s = [r]) (sc_stmts s) ->
  exists text, scop_print_scoplib_one s n = Ok text.
Proof.
  intros Hr Hok Hco (F1 & F2 & F3 & F4 & F5 & F6 & F7) Hn Hsh.
  pose proof (scop_unions cfg p m _ s Hok Hco F1) as Hg.
  destruct (params_total cfg p m n s Hr Hok Hco F2 Hn) as (n1 & E1 & Hr1 & Hn1).
  destruct (arrays_total cfg p m Hm n1 s Hr1 Hok Hco F4 Hg Hn1) as (n2 & E2 & Hr2 & Hn2).
  unfold scop_print_scoplib_one. rewrite E1. cbn [bind]. rewrite E2. cbn [bind]. clear E1 E2 Hn Hn1 Hr Hr1 n n1. rename n2 into n, Hr2 into Hr, Hn2 into Hn.
  destruct Hok as (_ & _ & _ & _ & _ & Hps & _ & Hst & (_ & Hge & _) & _). destruct Hco as [C1 C2].
  unfold relations_of_scop in Hg, Hn. apply Forall_cons_iff in Hg, Hn. destruct Hg as [G1 Hg], Hn as [N1 Hn].
  destruct (good_scoplib n _ false false G1 N1 Hr ltac:(discriminate)) as (tc & ->). cbn [bind].
  assert (HP : exists t, match sc_params s with
       | [] => Ok []
       | g :: _ => t <- match g_data g with
                        | None => osl_strings_sprint None
                        | Some (DStrings x) => osl_strings_sprint (Some x)
                        | Some _ => UB
                        end ;; Ok (ln (lit "# Parameter names") ++ t)
       end = Ok t).
  { destruct Hps as [-> | (k & d & -> & Hgg)]; [eauto|].
    assert (Hd : payload_ok cfg p KStrings d).
    { inversion Hgg as [r u k2 d2 Ht Hlk Hd Ho]; subst. assert (k = KStrings) by (vm_compute in Hlk; congruence). now subst. }
    inversion Hd as [l Hl Hw| | | | | | | | | | | | | | | |]; subst. destruct (words_print l Hl Hw) as (t & E). cbn [g_data]. change (exists x, (t <- osl_strings_sprint (Some (Some l)) ;; Ok (ln (lit "# Parameter names") ++ t)) = Ok x). rewrite E. cbn [bind]. eauto. }
  destruct HP as (tp & ->). cbn [bind]. unfold osl_statement_pprint_scoplib. cbn [bind].
  destruct (sstatements_total n _ Hr (sc_stmts s) 1 Hst C2 Hg Hn F3 Hsh) as (ts & ->). cbn [bind].
  destruct (options_total (sc_ext s) Hge) as (te & Ee).
  assert (HE : exists t, match sc_ext s with
       | [] => Ok []
       | l => x <- osl_generic_print_options_scoplib l ;; Ok (rule_title (lit "Options") ++ x)
       end = Ok t).
  { destruct (sc_ext s); [eauto|]. rewrite Ee. cbn [bind]. eauto. }
  destruct HE as (tx & ->). cbn [bind]. eauto.
Qed.
End Q.
