(** * PropRead: reading any text ends, and what is accepted is well formed (C58)

    Nothing is assumed of the text. *)
From Verif Require Import Base IntModel Spec RelSpec LoopLemmas IntProofs TextSpec UtilModel UtilProofs PropUtil StringsModel
  RelationModel RelationProofs RelTextModel RelTextProofs ExtModel ScopModel IrregModel ReadSpec ReadProofs ReadProofs2 ReadProofs3
  CloneSpec CloneModel PropClone PropScop PropScop2 PropExpr.

Lemma open_pair {A B} (P : A -> B -> Prop) (r : res (A * B)) : safe (fun x => P (fst x) (snd x)) r ->
  ends r /\ forall a b, r = Ok (a, b) -> P a b.
Proof. intros H. apply safe_ends in H. destruct H as [H1 H2]. split; [exact H1|]. intros a b E. exact (H2 _ E). Qed.

(** Words, numbers, lines and tags, from a string: the reader ends and never moves the cursor back; a number that is read
    fits an int; a number, a word or a tag takes at least one character. *)
Theorem C58_strings : forall s,
  (ends (osl_util_sskip_blank_and_comments s) /\ forall r, osl_util_sskip_blank_and_comments s = Ok r -> rest_of r s) /\
  (ends (osl_util_read_int_s s) /\ forall v r, osl_util_read_int_s s = Ok (v, r) -> c_int v /\ rest_of r s /\ (List.length r < List.length s)%nat) /\
  (ends (osl_util_read_string_s s) /\ forall v r, osl_util_read_string_s s = Ok (v, r) -> rest_of r s /\ (List.length r < List.length s)%nat) /\
  (ends (osl_util_read_line_s s) /\ forall v r, osl_util_read_line_s s = Ok (v, r) -> rest_of r s) /\
  (ends (osl_util_read_tag_s s) /\ forall t r, osl_util_read_tag_s s = Ok (Some t, r) -> rest_of r s /\ (List.length r < List.length s)%nat) /\
  (ends (osl_strings_sread s) /\ forall o r, osl_strings_sread s = Ok (o, Some r) -> rest_of r s).
Proof.
  intros s. split; [exact (safe_ends _ _ (skip_safe s))|].
  split; [apply (open_pair (fun v r => c_int v /\ less r s)); apply read_int_safe|].
  split; [apply (open_pair (fun v r => less r s)); apply read_string_safe|].
  split; [apply (open_pair (fun v r => rest_of r s)); apply read_line_safe|].
  split.
  - pose proof (safe_ends _ _ (read_tag_safe s)) as [H1 H2]. split; [exact H1|]. intros t r E. apply H2 in E. destruct E as (_ & _ & E).
    apply E. discriminate.
  - pose proof (safe_ends _ _ (strings_safe s)) as [H1 H2]. split; [exact H1|]. intros o r E. apply H2 in E. apply E.
Qed.
Print Assumptions C58_strings.
Example C58_strings_witness : osl_util_read_int_s (lit " # comment" ++ [c_nl] ++ lit "42 x") = Ok (42, lit " x").
Proof. reflexivity. Qed.

(** The same readers on a file, whatever its text and its end-of-file flag. *)
Theorem C58_files : forall f name,
  (ends (osl_util_skip_blank_and_comments f) /\ forall o g, osl_util_skip_blank_and_comments f = Ok (o, g) -> rest_of (ftext g) (ftext f)) /\
  (ends (osl_util_read_int_f f) /\ forall v g, osl_util_read_int_f f = Ok (v, g) -> c_int v /\ rest_of (ftext g) (ftext f)) /\
  (ends (osl_util_read_string_f f) /\ forall v g, osl_util_read_string_f f = Ok (v, g) -> rest_of (ftext g) (ftext f)) /\
  (ends (osl_util_read_line_f f) /\ forall v g, osl_util_read_line_f f = Ok (v, g) -> rest_of (ftext g) (ftext f)) /\
  (ends (osl_util_read_tag_f f) /\ forall v g, osl_util_read_tag_f f = Ok (v, g) -> rest_of (ftext g) (ftext f)) /\
  (ends (osl_util_read_uptotag_f f name) /\ forall v g, osl_util_read_uptotag_f f name = Ok (v, g) -> rest_of (ftext g) (ftext f)) /\
  (ends (osl_util_read_uptoendtag_f f name) /\ forall v g, osl_util_read_uptoendtag_f f name = Ok (v, g) -> rest_of (ftext g) (ftext f)) /\
  (ends (osl_strings_read f) /\ forall v g, osl_strings_read f = Ok (v, g) -> rest_of (ftext g) (ftext f)).
Proof.
  intros f name.
  assert (G : forall A (P : A -> Prop) (r : res (A * file)), safe (fun x => P (fst x) /\ frest (snd x) f) r ->
    ends r /\ forall v g, r = Ok (v, g) -> P v /\ rest_of (ftext g) (ftext f)).
  { intros A P r H. now apply (open_pair (fun a b => P a /\ frest b f)). }
  assert (G2 : forall A (r : res (A * file)), safe (fun x => frest (snd x) f) r -> ends r /\ forall v g, r = Ok (v, g) -> rest_of (ftext g) (ftext f)).
  { intros A r H. now apply (open_pair (fun a b => frest b f)). }
  split; [apply G2; eapply safe_mono; [apply fskip_safe|]; now intros ? []|]. split; [apply G, fread_int_safe|].
  split; [apply G2, fread_string_safe|]. split; [apply G2, fread_line_safe|]. split; [apply G2, fread_tag_safe|].
  split; [apply G2; eapply safe_mono; [apply fuptotag_safe|]; now intros ? []|].
  split; [apply G2; eapply safe_mono; [apply fuptoendtag_safe|]; now intros ? []|].
  apply G2. eapply safe_mono; [apply fstrings_safe|]; now intros ? [].
Qed.
Print Assumptions C58_files.
Example C58_files_witness : osl_util_read_int_f (File (lit "7 lost" ++ [c_nl] ++ lit "8") false) = Ok (7, File (lit "8") false).
Proof. reflexivity. Qed.

(** Relations, from a file: on any text the reader ends; if it returns, the union has at least one part, its parts all have
    the type that was read, one that has a name, and each of them has a matrix of the announced size whose cells all are values of the
    precision asked for (none is left uninitialised). *)
Theorem C58_relation : forall (cfg : config) (f : file) (p : Z), config_ok cfg -> supported cfg p ->
  ends (osl_relation_pread f p) /\
  forall u g, osl_relation_pread f p = Ok (u, g) ->
    rest_of (ftext g) (ftext f) /\ union_read cfg p u /\ exists t, Forall (fun r => rtype r = t) u.
Proof. intros cfg f p Hc Hp. apply (open_pair (fun u g => frest g f /\ union_read cfg p u /\ exists t, Forall (fun r => rtype r = t) u)). now apply pread_safe. Qed.
Print Assumptions C58_relation.

(** From a string: the same, but only the first part has the type that was read (the others have no type); the PolyLib
    reader gives no type to any part. *)
Theorem C58_relation_string : forall (cfg : config) (s : str) (p : Z), config_ok cfg -> supported cfg p ->
  (ends (osl_relation_psread s p) /\
   forall u r, osl_relation_psread s p = Ok (u, r) -> rest_of r s /\ union_read cfg p u) /\
  (ends (osl_relation_psread_polylib s p) /\
   forall u r, osl_relation_psread_polylib s p = Ok (u, r) ->
     rest_of r s /\ union_read cfg p u /\ Forall (fun x => rtype x = UNDEFINED) u).
Proof.
  intros cfg s p Hc Hp. split.
  - apply (open_pair (fun u r => rest_of r s /\ union_read cfg p u)). now apply psread_safe.
  - apply (open_pair (fun u r => rest_of r s /\ union_read cfg p u /\ Forall (fun x => rtype x = UNDEFINED) u)).
    eapply safe_mono; [apply psread_polylib_safe; assumption|]. intros [u r] (H1 & H2 & H3). cbn [fst snd] in *. split; [exact H1|]. split.
    + split; [exact H2|]. revert H3. apply Forall_impl. intros x [[W E] T]. split; [exact W|]. split; [exact E|]. rewrite T. cbn. tauto.
    + revert H3. apply Forall_impl. now intros x [_ T].
Qed.
Print Assumptions C58_relation_string.
(** A text with a negative size is refused, one that stops in the middle of a matrix too. *)
Definition rel_text : str := lit "CONTEXT" ++ [c_nl] ++ lit "1 3 0 0 0 1" ++ [c_nl] ++ lit "1 5 -9" ++ [c_nl].
Example C58_relation_witness :
  (exists r, @osl_relation_pread lp64_debug (File rel_text false) 64 = Ok ([r], File [] false) /\ rm r = [[1; 5; -9]]) /\
  @osl_relation_pread lp64_debug (File (lit "CONTEXT" ++ [c_nl] ++ lit "-1 3 0 0 0 1" ++ [c_nl]) false) 64 = Err /\
  @osl_relation_pread lp64_debug (File (lit "CONTEXT" ++ [c_nl] ++ lit "1 3 0 0 0 1" ++ [c_nl]) false) 64 = Err.
Proof. split; [eexists; split; reflexivity|]. split; reflexivity. Qed.

(** Extensions: a list read from a string or from a file, or one extension, whatever the registry.  The interface of each is
    one of the registry, its data has the kind of this interface; when all the extensions have data, their URIs are distinct.  The
    nesting of symbols in the extensions of symbols is not bounded.  The relations they contain have the precision of the environment. *)
Theorem C58_extensions : forall (cfg : config) (env : option str) (registry : list interf) (s : str) (f : file), config_ok cfg ->
  let q := osl_util_get_precision env in
  (ends (osl_generic_sread env s registry) /\
   forall l r, osl_generic_sread env s registry = Ok (l, r) -> generics_read cfg q registry l /\ r = []) /\
  (ends (osl_generic_sread_one env registry s) /\
   forall o r, osl_generic_sread_one env registry s = Ok (o, r) ->
     rest_of r s /\ forall g, o = Some g -> generic_read cfg q registry g) /\
  (ends (osl_generic_read env f registry) /\
   forall l g, osl_generic_read env f registry = Ok (l, g) -> rest_of (ftext g) (ftext f) /\ generics_read cfg q registry l) /\
  (ends (osl_generic_read_one env f registry) /\
   forall o g, osl_generic_read_one env f registry = Ok (o, g) ->
     rest_of (ftext g) (ftext f) /\ forall x, o = Some x -> generic_read cfg q registry x).
Proof.
  intros cfg env registry s f Hc q. split; [|split; [|split]].
  - apply (open_pair (fun l r => generics_read cfg q registry l /\ r = [])). now apply generic_sread_safe.
  - apply (open_pair (fun o r => rest_of r s /\ forall g, o = Some g -> generic_read cfg q registry g)).
    eapply safe_mono; [now apply one_safe|]. intros [o r] (H1 & _ & H2). split; [exact H1|]. intros g E. cbn [fst] in *. now subst o.
  - apply (open_pair (fun l g => frest g f /\ generics_read cfg q registry l)). now apply fread_safe.
  - apply (open_pair (fun o g => frest g f /\ forall x, o = Some x -> generic_read cfg q registry x)).
    eapply safe_mono; [now apply fone_safe|]. intros [o r] (H1 & H2). split; [exact H1|]. intros g E. cbn [fst] in *. now subst o.
Qed.
Print Assumptions C58_extensions.

(** Statements and scops, from a file: on any text the reader ends; what it returns is a list of scops of version 1, with a
    language, the registry given, relations of the precision given and of the type of their place, and well formed extensions. *)
Theorem C58_statement : forall (cfg : config) (env : option str) (registry : list interf) (f : file) (p : Z), config_ok cfg -> supported cfg p ->
  ends (osl_statement_pread env f registry p) /\
  forall s g, osl_statement_pread env f registry p = Ok (s, g) ->
    rest_of (ftext g) (ftext f) /\ statement_read cfg p (osl_util_get_precision env) registry s.
Proof.
  intros cfg env registry f p Hc Hp. apply (open_pair (fun s g => frest g f /\ statement_read cfg p (osl_util_get_precision env) registry s)).
  now apply statement_safe.
Qed.
Print Assumptions C58_statement.
Theorem C58_scop : forall (cfg : config) (env : option str) (registry : list interf) (f : file) (p : Z), config_ok cfg -> supported cfg p ->
  ends (osl_scop_pread env f registry p) /\
  forall l g, osl_scop_pread env f registry p = Ok (l, g) ->
    rest_of (ftext g) (ftext f) /\ Forall (scop_read cfg p (osl_util_get_precision env) registry) l.
Proof.
  intros cfg env registry f p Hc Hp. apply (open_pair (fun l g => frest g f /\ Forall (scop_read cfg p (osl_util_get_precision env) registry) l)).
  now apply scop_safe.
Qed.
Print Assumptions C58_scop.
(** With the default registry, and the precision of the environment for everything *)
Theorem C58_scop_read : forall (cfg : config) (env : option str) (f : file), config_ok cfg ->
  let q := osl_util_get_precision env in
  ends (osl_scop_read env f) /\
  forall l g, osl_scop_read env f = Ok (l, g) -> rest_of (ftext g) (ftext f) /\ Forall (scop_read cfg q q default_registry) l.
Proof. intros cfg env f Hc q. apply C58_scop; [exact Hc|apply C38_precision_supported]. Qed.
Print Assumptions C58_scop_read.

(** ** What is read can be copied *)
Lemma read_clonable (cfg : config) q : supported cfg q ->
  (forall d k, data_read cfg q k d -> clonable cfg k d) /\
  (forall x, symbol_read cfg q x -> clonable_symbol cfg x) /\
  (forall g registry, generic_read cfg q registry g -> clonable_generic cfg g).
Proof.
  intros Hq. set (P := fun d => forall k, data_read cfg q k d -> clonable cfg k d).
  set (Q := fun x => symbol_read cfg q x -> clonable_symbol cfg x).
  set (R := fun g => forall registry, generic_read cfg q registry g -> clonable_generic cfg g).
  assert (B : forall b, body_read b -> no_or_array (bo_iterators b) /\ no_or_array (bo_expression b)).
  { intros [i e] [H1 [x H2]]. cbn [bo_iterators bo_expression] in *. split; [destruct i; exact H1|]. subst e. cbn. discriminate. }
  assert (L : forall l, lines_read l -> lines_present l).
  { intros l. unfold lines_read, lines_present. apply Forall_impl. intros x [t ->]. discriminate. }
  assert (U : forall p u, union_read cfg p u -> Forall (wf_rel cfg) u).
  { intros p u [_ H]. revert H. apply Forall_impl. now intros r []. }
  assert (H1 : forall d, (forall l, d <> DSymbols l) -> P d).
  { intros d Hd k. destruct d; try (specialize (Hd _ eq_refl) as []; fail); destruct k; cbn [clonable data_read]; try easy.
    - intros (x & l & ->). discriminate.
    - apply B.
    - intros H. split; [apply H|eapply U; exact H].
    - intros (x & l & ->). cbn. discriminate.
    - intros [H H2]. split; [exact H|]. revert H2. apply Forall_impl. intros x [H2 _]. eapply U; exact H2.
    - destruct (eb_body e); [apply B|easy].
    - intros [H H2]. split; [exact H|]. revert H2. apply Forall_impl. intros r (A1 & A2 & A3 & A4). auto 6.
    - intros [A1 A2]. auto. }
  assert (H2 : forall l, Forall Q l -> P (DSymbols l)).
  { intros l Hl k. destruct k; cbn [clonable data_read]; try easy. intros [Hne H]. split; [exact Hne|]. apply fold_Forall. apply fold_Forall in H.
    clear Hne. induction Hl as [|x l Hx Hl IH]; [constructor|]. inversion H; subst. constructor; [now apply Hx|now apply IH]. }
  assert (H3 : forall l, Forall R l ->
      fold_right (fun g P => generic_read cfg q default_registry g /\ P) True l /\ (List.length l <= 1)%nat ->
      fold_right (fun x P => clonable_generic cfg x /\ P) True l /\ NoDup (map g_uri l)).
  { intros l Hl [Hf Hn]. split.
    - apply fold_Forall. apply fold_Forall in Hf. clear Hn. induction Hl as [|x l Hx Hl IH]; [constructor|]. inversion Hf; subst. constructor; [eapply Hx; eassumption|now apply IH].
    - destruct l as [|x [|y l]]; cbn in *; [constructor| |lia]. repeat constructor. easy. }
  assert (H4 : forall t g n a b c e, Forall R a -> Forall R b -> Forall R c -> Forall R e -> Q (Symbol t g n a b c e)).
  { intros t g n a b c e Ha Hb Hcc He (Ka & Kb & Kc & Ke). split; [now apply H3|]. split; [now apply H3|]. split; now apply H3. }
  assert (H5 : forall i, R (Generic i None)).
  { intros [[[u|] k]|] registry H; cbn in H; try easy; destruct H as (_ & E & H). cbn. intros ->. apply H. unfold never_null. tauto. }
  assert (H6 : forall i d, P d -> R (Generic i (Some d))).
  { intros [[[u|] k]|] d Hd registry H; try easy; destruct H as (_ & E & H); [|now elim E]. now apply Hd. }
  split; [|split].
  - now apply (edata_all P Q R).
  - now apply (symbol_all P Q R).
  - now apply (generic_all P Q R).
Qed.
(** Every extension of a scop has data. *)
Definition all_have_data (s : scop) : Prop :=
  Forall (fun g => g_data g <> None) (sc_ext s) /\ Forall (fun x => Forall (fun g => g_data g <> None) (st_ext x)) (sc_stmts s).
(** Whatever the text, if it is accepted and no extension was read as NULL, the scops it gives can be copied, and the copy has the same content. *)
Theorem C58_clone : forall (cfg : config) (env : option str) (registry : list interf) (f : file) (p : Z) l g,
  config_ok cfg -> supported cfg p -> clonable_interfaces registry ->
  osl_scop_pread env f registry p = Ok (l, g) -> Forall all_have_data l ->
  Forall (clonable_scop cfg) l /\ osl_scop_clone l = Ok l.
Proof.
  intros cfg env registry f p l g Hc Hp Hi E Hd. pose proof (C58_scop cfg env registry f p Hc Hp) as [_ H]. apply H in E. destruct E as [_ E].
  assert (Hq : supported cfg (osl_util_get_precision env)) by apply C38_precision_supported.
  destruct (read_clonable cfg _ Hq) as (_ & _ & R).
  assert (G : forall l, generics_read cfg (osl_util_get_precision env) registry l -> Forall (fun g => g_data g <> None) l -> clonable_generics cfg l).
  { intros l' [G1 G2] F. split; [|now apply G2]. revert G1. apply Forall_impl. intros x. apply R. }
  assert (U : forall u, union_read cfg p u -> Forall (wf_rel cfg) u).
  { intros u [_ X]. revert X. apply Forall_impl. now intros r []. }
  assert (C : Forall (clonable_scop cfg) l).
  { rewrite Forall_forall in *. intros s Hs. specialize (E s Hs). specialize (Hd s Hs). destruct E as (_ & _ & Er & Ec & Ep & En & Es & Ee).
    destruct Hd as [D1 D2]. split; [now apply U|]. split; [|split; [|split]].
    - split; [revert Ep; apply Forall_impl; intros x; apply R|]. destruct (sc_params s) as [|x [|y ps]]; cbn in *; [constructor| |lia]. repeat constructor. easy.
    - rewrite Forall_forall in *. intros x Hx. specialize (Es x Hx). specialize (D2 x Hx). destruct Es as (S1 & S2 & S3 & S4).
      split; [destruct S1 as [-> |[S1 _]]; [constructor|now apply U]|]. split; [destruct S2 as [-> |[S2 _]]; [constructor|now apply U]|].
      split; [revert S3; apply Forall_impl; intros u [X _]; now apply U|]. now apply G.
    - now rewrite Er.
    - now apply G. }
  split; [exact C|]. destruct (C44_scops cfg l Hc C) as (copy & E1 & E2 & _). now subst copy.
Qed.
Print Assumptions C58_clone.
(** The hypotheses hold of a text with two scops and several extensions. *)
Example C58_clone_witness : exists l g, @osl_scop_pread lp64_debug (Some (lit "64")) (File wr_text false) default_registry 64 = Ok (l, g) /\
  Forall all_have_data l /\ List.length l = 2%nat.
Proof.
  destruct C35_witness as [E _]. eexists _, _. split; [exact E|]. split; [|reflexivity].
  repeat (apply List.Forall_cons || apply List.Forall_nil || split); cbn; try discriminate.
Qed.

(** ** What the readers let through *)
(** An extension without data hides the ones that follow: osl_generic_add looks for the data of an extension of the same URI, and takes
    NULL data for no extension.  A list with three extensions of the same URI is accepted. *)
Definition twice_text : str := lit "<strings>" ++ [c_nl] ++ lit "</strings><strings>" ++ [c_nl] ++ lit "N" ++ [c_nl] ++ lit "</strings><strings>"
  ++ [c_nl] ++ lit "M" ++ [c_nl] ++ lit "</strings>".
Theorem C58_duplicates_refuted : exists a b c, @osl_generic_sread lp64_debug None twice_text default_registry = Ok ([a; b; c], []) /\
  g_uri a = Some (lit "strings") /\ g_uri b = g_uri a /\ g_uri c = g_uri a /\
  g_data a = None /\ g_data b = Some (DStrings (Some [lit "N"])) /\ g_data c = Some (DStrings (Some [lit "M"])).
Proof. eexists _, _, _. split; [vm_compute; reflexivity|]. repeat split. Qed.
Print Assumptions C58_duplicates_refuted.

(** The precision asked for is that of the context and of the statements only: a relation in an extension is read at the precision of
    the environment. *)
Definition ext_text : str := lit "<OpenScop>" ++ [c_nl] ++ lit "C" ++ [c_nl] ++ rel_text ++ lit "0" ++ [c_nl] ++ lit "0" ++ [c_nl]
  ++ lit "<relation>" ++ [c_nl] ++ rel_text ++ lit "</relation>" ++ [c_nl] ++ lit "</OpenScop>" ++ [c_nl].
Theorem C58_precision_refuted : exists s g r u, @osl_scop_pread lp64_debug None (File ext_text false) default_registry 32 = Ok ([s], g) /\
  Forall (fun r => rprec r = 32) (sc_context s) /\
  sc_ext s = [Generic (Some (osl_interface_of KRelation)) (Some (DRelation (r :: u)))] /\ rprec r = 0.
Proof. eexists _, _, _, _. split; [vm_compute; reflexivity|]. split; [repeat constructor|]. split; reflexivity. Qed.
Print Assumptions C58_precision_refuted.

(** A scop that fails the integrity check is accepted (osl_scop_pread only warns): here the context has an output dimension. *)
Definition odd_text : str := lit "<OpenScop>" ++ [c_nl] ++ lit "C" ++ [c_nl] ++ lit "CONTEXT" ++ [c_nl] ++ lit "0 3 1 0 0 0" ++ [c_nl] ++ lit "0" ++ [c_nl] ++ lit "0" ++ [c_nl]
  ++ lit "</OpenScop>" ++ [c_nl].
Theorem C58_incoherent_refuted : exists s g, @osl_scop_pread lp64_debug None (File odd_text false) default_registry 64 = Ok ([s], g) /\
  @osl_scop_integrity_check lp64_debug [s] = Ok false.
Proof. eexists _, _. split; [vm_compute; reflexivity|vm_compute; reflexivity]. Qed.
Print Assumptions C58_incoherent_refuted.

(** ** The readers of the data, one by one *)
Ltac direct L := let H := fresh in pose proof L as H; apply safe_ends in H; exact (proj1 H).
Theorem C58_data : forall (cfg : config) (env : option str) (s : str), config_ok cfg ->
  ends (osl_body_sread s) /\ ends (osl_extbody_sread s) /\ ends (osl_arrays_sread s) /\ ends (osl_comment_sread s) /\
  ends (osl_textual_sread s) /\ ends (osl_scatnames_sread s) /\ ends (osl_coordinates_sread s) /\ ends (osl_clay_sread s) /\
  ends (osl_null_sread s) /\ ends (osl_loop_sread s) /\ ends (osl_pluto_unroll_sread s) /\ ends (osl_scatinfos_sread s) /\
  ends (osl_annotation_sread s) /\ ends (osl_region_sread s) /\ ends (osl_dependence_sread env s) /\ ends (osl_symbols_sread env s).
Proof.
  intros cfg env s Hc. repeat (apply conj).
  - direct (body_safe s).
  - direct (extbody_safe s).
  - direct (arrays_safe s).
  - unfold osl_comment_sread, ends. destruct (_ <? _); discriminate.
  - discriminate.
  - direct (scatnames_safe s).
  - direct (coordinates_safe s).
  - unfold osl_clay_sread, ends. destruct (_ <? _); discriminate.
  - discriminate.
  - direct (loop_safe s).
  - direct (unroll_safe s).
  - direct (scatinfos_safe s).
  - direct (annotation_safe s).
  - direct (region_safe s).
  - direct (dependence_psafe Hc (osl_util_get_precision env) s (C38_precision_supported cfg env)).
  - unfold osl_symbols_sread.
    assert (O : one_ok (cfg := cfg) env (S (List.length s)) (fun t => osl_generic_sread_one env default_registry t)).
    { intros t _. eapply safe_mono; [apply (one_safe Hc)|]. intros x (G1 & _ & G3). now split. }
    direct (symbols_with_safe env (S (List.length s)) _ s O ltac:(lia)).
Qed.
Print Assumptions C58_data.

(** The irregular extension: as many predicates as the two counts announce. *)
Lemma next_int_safe s : safe (fun _ => True) (next_int s).
Proof.
  unfold next_int. destruct (strtok by_words s) as [o r]. unfold atoi. destruct o as [t|]; [|exact I].
  destruct (scan_Z t) as [[[v x]|]|]; cbn [bind]; try exact I. destruct (fits 32 v); exact I.
Qed.
Lemma next_count_safe s : safe (fun _ => True) (next_count s).
Proof. unfold next_count. eapply safe_bind; [apply next_int_safe|]. intros [v r] _. destruct (v <? 0); exact I. Qed.
Lemma next_ints_safe : forall n s, safe (fun _ => True) (next_ints n s).
Proof. induction n as [|n IH]; intros s; cbn [next_ints]; [exact I|]. eapply safe_bind; [apply next_int_safe|]. intros [v r] _. eapply safe_bind; [apply IH|]. now intros []. Qed.
Lemma next_statements_safe : forall n s, safe (fun x => List.length (fst x) = n) (next_statements n s).
Proof.
  induction n as [|n IH]; intros s; cbn [next_statements]; [reflexivity|]. eapply safe_bind; [apply next_count_safe|]. intros [m r] _.
  eapply safe_bind; [apply next_ints_safe|]. intros [x r2] _. eapply safe_bind; [apply IH|]. intros [l r3] H. cbn in *. now f_equal.
Qed.
Lemma strdup_strtok_safe d s : safe (fun _ => True) (strdup_strtok d s).
Proof. unfold strdup_strtok. destruct (strtok d s) as [[t|] r]; [|exact I]. destruct (strtok d r) as [[u|] r2]; exact I. Qed.
Lemma next_iterators_safe : forall n s, safe (fun _ => True) (next_iterators n s).
Proof. induction n as [|n IH]; intros s; cbn [next_iterators]; [exact I|]. eapply safe_bind; [apply strdup_strtok_safe|]. intros [v r] _. eapply safe_bind; [apply IH|]. now intros []. Qed.
Lemma next_predicates_safe : forall n s, safe (fun x => List.length (fst x) = n) (next_predicates n s).
Proof.
  induction n as [|n IH]; intros s; cbn [next_predicates]; [reflexivity|]. eapply safe_bind; [apply next_count_safe|]. intros [m r] _.
  eapply safe_bind; [apply next_iterators_safe|]. intros [x r2] _. eapply safe_bind; [apply strdup_strtok_safe|]. intros [y r3] _.
  eapply safe_bind; [apply IH|]. intros [l r4] H. cbn in *. now f_equal.
Qed.
Theorem C58_irregular : forall s,
  ends (osl_irregular_sread s) /\
  forall x, osl_irregular_sread s = Ok (Some x) -> Z.of_nat (List.length (ir_predicates x)) = ir_control x + ir_exit x.
Proof.
  intros s. assert (H : safe (fun o => forall x, o = Some x -> Z.of_nat (List.length (ir_predicates x)) = ir_control x + ir_exit x) (osl_irregular_sread s)).
  { unfold osl_irregular_sread. destruct s as [s|]; [|discriminate]. destruct (_ <? _); [exact I|].
    eapply safe_bind; [apply next_count_safe|]. intros [n r] _. eapply safe_bind; [apply next_statements_safe|]. intros [l r2] _.
    eapply safe_bind; [apply next_int_safe|]. intros [c r3] _. eapply safe_bind; [apply next_int_safe|]. intros [e r4] _.
    destruct (negb _); [exact I|]. destruct (Z.ltb_spec (c + e) 0); [exact I|]. eapply safe_bind; [apply next_predicates_safe|]. intros [p r5] Hp.
    apply safe_ok. intros x E. apply Some_inj in E. subst x. cbn [ir_predicates ir_control ir_exit fst] in *. lia. }
  apply safe_ends in H. destruct H as [H1 H2]. split; [exact H1|]. intros x E. exact (H2 _ E x eq_refl).
Qed.
Print Assumptions C58_irregular.
Example C58_irregular_witness : exists x, osl_irregular_sread (Some (lit "0" ++ [c_nl] ++ lit "1" ++ [c_nl] ++ lit "0" ++ [c_nl] ++ lit "0" ++ [c_nl] ++ lit "a" ++ [c_nl] ++ lit "b" ++ [c_nl])) = Ok (Some x) /\
  List.length (ir_predicates x) = 1%nat.
Proof. eexists. split; [vm_compute; reflexivity|reflexivity]. Qed.
