(** * ScoplibProofs3: access lists, bodies, statements and scops in the SCoPLib format *)
From Coq Require Import ZifyBool ZifyNat.
From Verif Require Import Base IntModel VectorModel RelationModel UtilModel StringsModel RelTextModel ExtModel ScopModel CloneModel
  Spec RelSpec TextSpec LoopLemmas IntProofs TextInt VectorProofs RelationProofs UtilProofs RelTextProofs PropStrings RelTextProofs2
  PropRelText ExtSpec ExtProofs PropExt2 PropExt3 SaveProofs4 ScoplibModel ScoplibSpec ScoplibProofs ScoplibProofs2.

Section STATEMENTS.
Context {cfg : config}.

Lemma shown_covered t r : shown_relation (cfg := cfg) t r -> wf_rel cfg r /\ covered r /\ rtype r = t.
Proof. unfold shown_relation, covered. tauto. Qed.

(** ** Relations *)
Lemma domain_closed u on fake t : u <> [] -> Forall (shown_relation (cfg := cfg) TYPE_DOMAIN) u -> (fake = true -> Forall (fun r => nrows r = 0) u) -> one_line_names on ->
  osl_relation_spprint_scoplib u on true fake = Ok t -> closed t (numbers (union_numbers fake u)).
Proof.
  intros Hn H F O E. assert (P : forall u k, Forall (shown_relation (cfg := cfg) TYPE_DOMAIN) u -> parts_numbers true fake k u = domains_from k fake u).
  { clear. induction u as [|r u IH]; intros k H; [reflexivity|]. inversion H as [|? ? Hr Hu]; subst. cbn [parts_numbers domains_from]. rewrite IH by assumption.
    unfold part_numbers. apply shown_covered in Hr as (_ & _ & ->). reflexivity. }
  unfold union_numbers. rewrite <- P by assumption. apply (relation_closed u on true fake t TYPE_DOMAIN); try assumption.
  - destruct u as [|r u]; [congruence|]. inversion H as [|? ? Hr Hu]; subst. apply shown_covered in Hr as (_ & _ & Hr). cbn. now apply Z.eqb_eq.
  - rewrite Forall_forall in H |- *. intros r Hr. destruct (shown_covered _ _ (H r Hr)) as (W & C & T). split; [exact W|]. split; [exact C|]. split; [|now rewrite T].
    intros X. specialize (F X). rewrite Forall_forall in F. split; [intros _; now apply F|intros; congruence].
Qed.
Lemma matrix_closed r on fake t t0 : shown_relation (cfg := cfg) t0 r -> t0 = TYPE_SCATTERING \/ t0 = TYPE_CONTEXT ->
  (fake = true -> t0 = TYPE_SCATTERING /\ nrows r = 1) -> one_line_names on ->
  osl_relation_spprint_scoplib [r] on false fake = Ok t -> closed t (numbers (flat_map (scattering_numbers fake) [r])).
Proof.
  intros Hr T0 F O E. destruct (shown_covered _ _ Hr) as (W & C & T). apply (relation_closed [r] on false fake t t0) in E; try assumption; try discriminate.
  - cbn [zlength parts_numbers] in E. change (1 <? zlength [r]) with false in E. cbn [flat_map]. unfold part_numbers in E. rewrite T in E.
    destruct T0 as [->| ->]; exact E.
  - cbn. now apply Z.eqb_eq.
  - constructor; [|constructor]. split; [exact W|]. split; [exact C|]. split; [|now rewrite T]. intros X. destruct (F X) as [-> N].
    split; [rewrite T; discriminate|]. auto.
Qed.
Lemma access_closed r on fake t t0 : shown_relation (cfg := cfg) t0 r -> t0 = TYPE_READ \/ t0 = TYPE_WRITE -> one_line_names on ->
  osl_relation_spprint_scoplib [r] on false fake = Ok t -> closed t (numbers (concat (access_rows fake r))).
Proof.
  intros Hr T0 O E. destruct (shown_covered _ _ Hr) as (W & C & T). apply (relation_closed [r] on false fake t t0) in E; try assumption; try discriminate.
  - cbn [zlength parts_numbers] in E. change (1 <? zlength [r]) with false in E. unfold part_numbers in E. rewrite T in E.
    destruct T0 as [->| ->]; cbn [app] in E; rewrite app_nil_r in E; exact E.
  - cbn. now apply Z.eqb_eq.
  - constructor; [|constructor]. split; [exact W|]. split; [exact C|]. split; [|now rewrite T]. intros X.
    split; [rewrite T; destruct T0 as [->| ->]; discriminate|]. intros A B D. rewrite T in *. destruct T0; contradiction.
Qed.

(** ** Access lists *)
Definition shown_access (u : list relation) : Prop :=
  exists r, u = [r] /\ (shown_relation (cfg := cfg) TYPE_READ r \/ shown_relation (cfg := cfg) TYPE_WRITE r) /\ 1 <= nrows r.
Lemma access_rows_length fake r : wf_rel cfg r -> covered r -> 1 <= nrows r ->
  zlength (access_rows fake r) = if nrows r =? 1 then 1 else nrows r - 1.
Proof.
  intros W (C1 & C2 & C3 & C4 & C5) N. pose proof (mat_length r W ltac:(lia)) as L. unfold access_rows.
  destruct (rm r) as [|row [|row' rows]].
  - cbn in L. lia.
  - rewrite <- L. reflexivity.
  - rewrite !zlength_cons in L. pose proof (zlength_nonneg rows). destruct (Z.eqb_spec (nrows r) 1); [lia|]. rewrite zlength_cons. unfold zlength in *. rewrite map_length. lia.
Qed.
Lemma sizes_ok t fake l : Forall shown_access l -> forall a b,
  access_sizes t l a b = (a + zlength (flat_map (access_rows fake) (of_type t l)), match rev (of_type t l) with r :: _ => ncols r - nout r | [] => b end).
Proof.
  induction 1 as [|u l (r & -> & Hr & N) Hl IH]; intros a b; cbn [access_sizes of_type flat_map rev].
  - change (zlength _) with 0. f_equal. lia.
  - fold (of_type t l). destruct (rtype r =? t); [|cbn [app]; apply IH].
    assert (W : wf_rel cfg r /\ covered r) by (destruct Hr as [Hr|Hr]; apply shown_covered in Hr; tauto).
    rewrite IH. cbn [app flat_map rev]. rewrite zlength_app, (access_rows_length fake r) by tauto. f_equal.
    + destruct (nrows r =? 1); lia.
    + destruct (rev (of_type t l)) as [|x y]; reflexivity.
Qed.
Lemma access_texts_closed t on fake l text : t = TYPE_READ \/ t = TYPE_WRITE -> Forall shown_access l -> one_line_names on ->
  access_texts t l on fake = Ok text -> closed text (numbers (concat (flat_map (access_rows fake) (of_type t l)))).
Proof.
  intros Ht H O. revert text. unfold access_texts. induction H as [|u l (r & -> & Hr & N) Hl IH]; intros text E; cbn [print_all] in E.
  - apply Ok_inj in E. subst text. apply closed_nil.
  - inv_bind E. inv_bind E. apply Ok_inj in E. subst text. specialize (IH _ E1). cbn [of_type flat_map]. fold (of_type t l). cbn [has_type] in E0.
    destruct (Z.eqb_spec (rtype r) t) as [T|T].
    + cbn [app flat_map]. rewrite concat_app, numbers_app. apply closed_app; [|exact IH]. apply (access_closed r on fake v t); try assumption.
      destruct Hr as [Hr|Hr]; pose proof Hr as Hr'; apply shown_covered in Hr' as (_ & _ & X); rewrite X in T; subst t; exact Hr.
    + apply Ok_inj in E0. subst v. exact IH.
Qed.
Lemma no_may_write l : Forall shown_access l -> forall a b, access_sizes TYPE_MAY_WRITE l a b = (a, b).
Proof.
  induction 1 as [|u l (r & -> & Hr & N) Hl IH]; intros a b; cbn [access_sizes]; [reflexivity|].
  destruct Hr as [Hr|Hr]; apply shown_covered in Hr as (_ & _ & ->); apply IH.
Qed.
Lemma accesses_closed l on fake t : l <> [] -> Forall shown_access l -> one_line_names on ->
  osl_relation_list_pprint_access_array_scoplib l on fake = Ok t ->
  closed t (numbers (accesses_numbers TYPE_READ fake l) ++ numbers (accesses_numbers TYPE_WRITE fake l)).
Proof.
  intros Hn H O E. unfold osl_relation_list_pprint_access_array_scoplib in E.
  assert (Hc : 0 <? osl_relation_list_count l = true).
  { unfold osl_relation_list_count. destruct l as [|u l]; [congruence|]. inversion H as [|? ? (r & -> & _) _]; subst. cbn [filter]. rewrite zlength_cons.
    apply Z.ltb_lt. match goal with |- _ < _ + zlength ?x => pose proof (zlength_nonneg x) end. lia. }
  rewrite Hc in E. rewrite (sizes_ok TYPE_READ fake l H), (sizes_ok TYPE_WRITE fake l H), (no_may_write l H) in E. cbv iota beta in E.
  inv_bind E. inv_bind E. change (0 <? 0) with false in E. cbn [bind] in E. apply Ok_inj in E. rewrite app_nil_r in E. subst t.
  apply access_texts_closed in E0, E1; auto. unfold accesses_numbers. rewrite !numbers_app. rewrite <- !app_assoc.
  apply closed_app0; [apply (closed_title (lit " Read access informations")); nonl|].
  apply closed_app; [apply closed_size|]. apply closed_app; [exact E0|].
  apply closed_app0; [apply (closed_title (lit " Write access informations")); nonl|].
  apply closed_app; [apply closed_size|]. exact E1.
Qed.

(** ** Strings and bodies *)
Lemma words_space a : ~ In c_hash a -> forall w b, words_from false w (a ++ c_sp :: b) = words_from false w a ++ words b.
Proof.
  induction a as [|c a IH]; intros H w b; cbn [app words_from]; [reflexivity|].
  assert (Ha : ~ In c_hash a) by (intros X; apply H; now right).
  destruct (ceqb c c_nl); [now rewrite IH, app_assoc|]. destruct (ceqb c c_hash) eqn:E; [exfalso; apply H; left; now apply ceqb_eq in E|].
  destruct (is_space c); [now rewrite IH, app_assoc|]. now apply IH.
Qed.
Lemma elems_words l t : Forall (fun w => ~ In c_hash w) l -> sprint_elems l = Ok t -> words t = flat_map words l.
Proof.
  intros H. revert t. induction H as [|w l Hw Hl IH]; intros t E; cbn [sprint_elems flat_map] in *; [apply Ok_inj in E; now subst|].
  inv_bind E. apply buf_store_eq in E0. subst v. inv_bind E. apply Ok_inj in E. subst t. destruct l as [|w' l].
  - cbn [sprint_elems] in E0. apply Ok_inj in E0. subst v. cbn [app flat_map]. now rewrite !app_nil_r.
  - cbn [app]. unfold words at 1. rewrite (words_space w Hw). f_equal. now apply IH.
Qed.
Lemma strings_closed o t : Forall (fun w => ~ In c_hash w) (strings_of o) -> osl_strings_sprint o = Ok t -> closed t (flat_map words (strings_of o)).
Proof.
  intros H E. destruct o as [s|]; cbn [osl_strings_sprint strings_of] in *.
  - inv_bind E. apply Ok_inj in E. subst t. rewrite <- (elems_words _ v) by assumption. apply closed_line.
  - apply Ok_inj in E. subst t. apply (closed_title (lit " NULL strings")). nonl.
Qed.
Lemma body_closed b t : shown_body (Some b) -> osl_body_print_scoplib (Some b) = Ok t ->
  closed t ((match strings_of (bo_iterators b) with [] => [lit "fakeiter"] | l => flat_map words l end) ++ flat_map words (strings_of (bo_expression b))).
Proof.
  intros (Hi & He) E. cbn [osl_body_print_scoplib] in E. inv_bind E. inv_bind E. apply Ok_inj in E. subst t. apply closed_app.
  - assert (S : osl_strings_size (bo_iterators b) = zlength (strings_of (bo_iterators b))) by (destruct (bo_iterators b) as [[l|]|]; reflexivity).
    rewrite S in E0. destruct (strings_of (bo_iterators b)) as [|w l] eqn:L.
    + apply Ok_inj in E0. subst v. exact (closed_line (lit "fakeiter")).
    + destruct (Z.ltb_spec 0 (zlength (w :: l))) as [_|X]; [|rewrite zlength_cons in X; pose proof (zlength_nonneg l); lia].
      inv_bind E0. apply Ok_inj in E0. subst v. apply closed_app0; [apply (closed_title (lit " List of original iterators")); nonl|].
      rewrite <- L. apply strings_closed; [|assumption]. rewrite L. revert Hi. apply Forall_impl. unfold plain. tauto.
  - apply closed_app0; [apply (closed_title (lit " Statement body expression")); nonl|]. now apply strings_closed.
Qed.

(** ** Statements *)
Lemma print2_no_nl k : no_nl (print2 k).
Proof. unfold print2. apply no_nl_app. split; [|apply print_Z_no_nl]. destruct (print_Z k) as [|? [|? ?]]; nonl. Qed.
Lemma rule_closed t : no_nl t -> closed (rule_title t) [].
Proof. intros H. change (rule_title t) with (c_hash :: (lit " =============================================== " ++ t) ++ [c_nl]). apply closed_comment. nonl. Qed.
Lemma section_closed k t : no_nl t -> closed (section_title k t) [].
Proof.
  intros H. unfold section_title, ln.
  change (lit "# ---------------------------------------------- " ++ print2 k ++ t ++ [c_nl])
    with (c_hash :: lit " ---------------------------------------------- " ++ print2 k ++ t ++ [c_nl]).
  rewrite !app_assoc. apply closed_comment. apply no_nl_app. split; [|assumption]. apply no_nl_app. split; [nonl|apply print2_no_nl].
Qed.
Lemma statement_closed k s n t : shown_statement (cfg := cfg) s -> one_line_names (Some n) ->
  statement_pprint_scoplib_one k s n = Ok t -> closed t (statement_words s).
Proof.
  intros (Hd & Hds & Hf & (r & Hs & Hr) & Ha & Has & Hl & Hb) O E. unfold statement_pprint_scoplib_one in E. inv_bind E.
  assert (Eb : body_of_statement s = v).
  { unfold body_of in E0. unfold body_of_statement. destruct (osl_generic_lookup (st_ext s) (uri_of KBody)) as [d|]; [|congruence]. destruct (Hl d eq_refl) as (b & ->). congruence. }
  rewrite Eb in Hb. inv_bind E.
  assert (Ef : loopless s = v0).
  { unfold loopless. rewrite Hs in *. destruct (st_domain s) as [|d ds]; [discriminate|]. destruct (nrows d =? 0); cbn [andb] in *; now apply Ok_inj in E1. }
  rewrite <- Ef in *. clear v0 Ef E1.
  assert (O' : one_line_names (Some (with_iterators n v))).
  { destruct v as [[[it|] e]|]; cbn [with_iterators]; try exact O. destruct O as (O1 & O2 & O3 & O4 & O5). cbn. repeat (split; [assumption|]).
    split; [|auto]. destruct Hb as [Hb _]. cbn in Hb. revert Hb. apply Forall_impl. unfold plain. tauto. }
  inv_bind E. inv_bind E. inv_bind E. inv_bind E. apply Ok_inj in E. subst t. unfold statement_words. rewrite Eb.
  assert (F : loopless s = true -> TYPE_SCATTERING = TYPE_SCATTERING /\ nrows r = 1).
  { intros X. split; [reflexivity|]. unfold loopless in X. rewrite Hs in X. destruct (st_domain s); [discriminate|]. apply andb_true_iff in X. lia. }
  apply domain_closed in E1; [|assumption|assumption|assumption|exact O']. rewrite Hs in *.
  apply (matrix_closed r _ _ _ TYPE_SCATTERING Hr) in E2; [|now left|exact F|exact O'].
  apply accesses_closed in E3; [|assumption|exact Has|exact O'].
  apply closed_app0; [apply rule_closed; nonl|]. apply closed_app0; [apply section_closed; nonl|].
  apply closed_app0; [apply (closed_title (lit " Iteration domain")); nonl|]. apply closed_app; [exact E1|]. apply closed_app0; [apply closed_nl|].
  apply closed_app0; [apply section_closed; nonl|]. apply closed_app0; [apply (closed_title (lit " Scattering function is provided")); nonl|].
  apply closed_app; [apply (closed_Z 1); now right|]. apply closed_app; [exact E2|]. apply closed_app0; [apply closed_nl|].
  apply closed_app0; [apply section_closed; nonl|]. apply closed_app0; [apply (closed_title (lit " Access informations are provided")); nonl|].
  apply closed_app; [apply (closed_Z 1); now right|]. rewrite (app_assoc (numbers (accesses_numbers TYPE_READ _ _))). apply closed_app; [exact E3|]. apply closed_app0; [apply closed_nl|].
  apply closed_app0; [apply section_closed; nonl|]. rewrite <- (app_nil_r (body_words v)). apply closed_app; [|apply closed_nl].
  destruct v as [b|].
  - inv_bind E4. apply Ok_inj in E4. subst v3. apply body_closed in E; [|exact Hb]. unfold body_words.
    apply closed_app0; [apply (closed_title (lit " Statement body is provided")); nonl|]. apply closed_app; [exact (closed_line (lit "1"))|exact E].
  - apply Ok_inj in E4. subst v3. apply closed_app0; [apply (closed_title (lit " Statement body is not provided")); nonl|]. exact (closed_line (lit "0")).
Qed.
Lemma statements_closed n : one_line_names (Some n) -> forall l k t, Forall (shown_statement (cfg := cfg)) l ->
  statements_pprint_scoplib k l n = Ok t -> closed t (flat_map statement_words l).
Proof.
  intros O. induction l as [|s l IH]; intros k t H E; cbn [statements_pprint_scoplib flat_map] in *; [apply Ok_inj in E; subst; apply closed_nil|].
  inversion H as [|? ? Hs Hl]; subst. inv_bind E. inv_bind E. apply Ok_inj in E. subst t. apply closed_app; [|eapply IH; eassumption]. eapply statement_closed; eassumption.
Qed.

(** ** Scops *)
Lemma provided_closed b t : no_nl t -> closed (osl_util_print_provided b t) [lit (if b then "1" else "0")].
Proof.
  intros H. unfold osl_util_print_provided. destruct b.
  - replace (lit "# " ++ t ++ lit " provided" ++ [c_nl] ++ lit "1" ++ [c_nl]) with ((c_hash :: (lit " " ++ t ++ lit " provided") ++ [c_nl]) ++ lit "1" ++ [c_nl])
      by (cbn [lit list_ascii_of_string app]; rewrite <- !app_assoc; reflexivity).
    apply closed_app0; [apply closed_comment; nonl|]. exact (closed_line (lit "1")).
  - replace (lit "# " ++ t ++ lit " not provided" ++ [c_nl] ++ lit "0" ++ [c_nl; c_nl]) with ((c_hash :: (lit " " ++ t ++ lit " not provided") ++ [c_nl]) ++ (lit "0" ++ [c_nl]) ++ [c_nl])
      by (cbn [lit list_ascii_of_string app]; rewrite <- !app_assoc; reflexivity).
    apply closed_app0; [apply closed_comment; nonl|]. apply (closed_app _ [lit "0"] _ []); [exact (closed_line (lit "0"))|apply closed_nl].
Qed.
Lemma arrays_lines a t : print_all (fun x : Z * str => buf_store (print_Z (fst x) ++ [c_sp] ++ ln (snd x))) a = Ok t ->
  closed t (flat_map (fun x => numbers [fst x] ++ words (snd x)) a).
Proof.
  revert t. induction a as [|[id w] a IH]; intros t E; cbn [print_all] in E; [apply Ok_inj in E; subst; apply closed_nil|].
  inv_bind E. apply buf_store_eq in E0. subst v. inv_bind E. apply Ok_inj in E. subst t. cbn [flat_map fst snd]. apply closed_app; [|now apply IH].
  rewrite app_assoc. apply closed_app; [apply closed_Z; now left|]. apply closed_line.
Qed.
Lemma options_closed l t : (forall d, osl_generic_lookup l (uri_of KArrays) = Some d -> exists a, d = DArrays a /\ Forall (fun x => no_nl (snd x)) a) ->
  osl_generic_print_options_scoplib l = Ok t -> closed t (arrays_words l).
Proof.
  intros H E. unfold osl_generic_print_options_scoplib, arrays_words in *. destruct (osl_generic_lookup l (uri_of KArrays)) as [d|].
  - destruct (H d eq_refl) as (a & -> & _). cbn [osl_arrays_sprint] in E. inv_bind E. inv_bind E0. apply Ok_inj in E0. subst v. apply Ok_inj in E. subst t.
    apply closed_app; [exact (closed_line (lit "<arrays>"))|].
    rewrite <- !app_assoc. apply closed_app0; [apply (closed_title (lit " Number of arrays")); nonl|]. apply closed_app; [apply closed_Z; now right|].
    apply closed_app0. { destruct (zlength a =? 0); [apply closed_nil|]. apply (closed_title (lit " Mapping array-identifiers/array-names")). nonl. }
    apply closed_app; [now apply arrays_lines|]. exact (closed_line (lit "</arrays>")).
  - cbn [osl_arrays_sprint bind] in E. apply Ok_inj in E. subst t. apply closed_nil.
Qed.
Lemma array_names_ok l n n' : (forall d, osl_generic_lookup l (uri_of KArrays) = Some d -> exists a, d = DArrays a /\ Forall (fun x => no_nl (snd x)) a) ->
  one_line_names (Some n) -> with_arrays n l = Ok n' -> one_line_names (Some n').
Proof.
  intros Hl (H1 & H2 & H3 & H4 & H5) E. unfold with_arrays in E. destruct (osl_generic_lookup l (uri_of KArrays)) as [d|] eqn:L.
  - destruct (Hl d eq_refl) as (a & -> & Ha). inv_bind E. destruct v as [s|]; [|discriminate]. apply Ok_inj in E. subst n'.
    cbn. repeat (split; [assumption|]). unfold osl_arrays_to_strings in E0. inv_bind E0.
    assert (Hv : Forall no_nl (elems v)) by (eapply generate_no_nl; [|eassumption]; apply no_nlb_ok; reflexivity).
    destruct v as [v|]; [|destruct a; [apply Ok_inj in E0; apply Some_eq in E0; subst; constructor|discriminate]].
    destruct a as [|x a]; [apply Ok_inj in E0; apply Some_eq in E0; subst; exact Hv|]. inv_bind E0. apply Ok_inj in E0. apply Some_eq in E0. subst s. cbn.
    apply (put_names_ok (x :: a) v); assumption.
  - apply Ok_inj in E. subst. cbn. auto.
Qed.
Lemma scop_closed s n t : shown_scop (cfg := cfg) s -> one_line_names (Some n) -> scop_print_scoplib_one s n = Ok t -> closed t (scop_words s).
Proof.
  intros ((r & Hc & Hr) & Hp & Hst & Hx) O E. unfold scop_print_scoplib_one in E. inv_bind E. inv_bind E.
  assert (O' : one_line_names (Some v)).
  { destruct Hp as [Hq|(k & p & Hq & Hp)]; rewrite Hq in E0; [cbn in E0; apply Ok_inj in E0; now subst|]. unfold with_parameters in E0. unfold has_uri in E0. cbn [g_uri g_iface if_uri g_data] in E0.
    change (uri_of KStrings) with (lit "strings") in E0. rewrite str_eqb_refl in E0. apply Ok_inj in E0. subst v. destruct O as (O1 & O2 & O3 & O4 & O5). cbn. split; [|auto].
    revert Hp. apply Forall_impl. unfold plain. tauto. }
  apply (array_names_ok _ _ _ Hx O') in E1. clear O O' E0. rename E1 into O.
  inv_bind E. inv_bind E. inv_bind E. inv_bind E. apply Ok_inj in E. subst t. rewrite Hc in *. unfold scop_words. rewrite Hc.
  apply (matrix_closed r _ _ _ TYPE_CONTEXT Hr) in E0; [|now right|discriminate|exact O].
  cbn [osl_statement_pprint_scoplib bind] in E2. apply (statements_closed v0) in E2; [|exact O|exact Hst].
  change (c_nl :: ?x) with ([c_nl] ++ x) at 1. apply closed_app0; [apply closed_nl|]. apply closed_app; [exact (closed_line (lit "SCoP"))|].
  apply closed_app0; [apply closed_nl|]. apply closed_app0; [apply rule_closed; nonl|]. apply closed_app0; [apply (closed_title (lit " Language")); nonl|].
  apply closed_app; [apply closed_line|]. apply closed_app0; [apply closed_nl|]. apply closed_app0; [apply (closed_title (lit " Context")); nonl|].
  apply closed_app; [exact E0|]. apply closed_app0; [apply closed_nl|].
  rewrite (app_assoc (osl_util_print_provided _ _)). apply closed_app.
  { destruct Hp as [Hq|(k & p & Hq & Hp)]; rewrite Hq in *.
    - cbn in E1. apply Ok_inj in E1. subst v2. rewrite app_nil_r. apply (provided_closed false). nonl.
    - cbn [parameters_words]. inv_bind E1. apply Ok_inj in E1. subst v2. cbn [g_data] in E. apply closed_app.
      + replace (osl_generic_has_URI _ _) with true; [apply (provided_closed true); nonl|]. unfold osl_generic_has_URI. cbn [existsb]. unfold has_uri. cbn [g_uri g_iface if_uri].
        change (uri_of KStrings) with (lit "strings"). rewrite str_eqb_refl. reflexivity.
      + apply closed_app0; [apply (closed_title (lit " Parameter names")); nonl|]. apply (strings_closed (Some p)); [|exact E]. revert Hp. apply Forall_impl. unfold plain. tauto. }
  change (c_nl :: ?x) with ([c_nl] ++ x). apply closed_app0; [apply closed_nl|]. apply closed_app0; [apply (closed_title (lit " Number of statements")); nonl|].
  apply closed_app; [apply closed_Z; now right|]. apply closed_app0; [apply closed_nl|]. apply closed_app; [exact E2|].
  destruct (sc_ext s) as [|g l] eqn:El; [apply Ok_inj in E3; subst v4; apply closed_nil|].
  inv_bind E3. apply Ok_inj in E3. subst v4. apply closed_app0; [apply rule_closed; nonl|]. now apply options_closed.
Qed.
End STATEMENTS.
