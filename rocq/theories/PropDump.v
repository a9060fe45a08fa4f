(** * PropDump: the dump functions show the whole structure, at the right level (C55) *)
From Verif Require Import Base Spec RelSpec TextSpec IntModel IntProofs VectorModel RelationModel RelationProofs UtilModel StringsModel RelTextModel LoopLemmas
  UtilProofs TextInt RelTextProofs RelTextProofs2 PropExpr2 SaveProofs ExtModel ScopModel IrregModel PropScop PropClone DumpModel DumpSpec DumpProofs DumpProofs2 DumpProofs3 DumpProofs4
  DumpProofs5 DumpProofs6 DumpProofs7.

(** ** Levels *)
(** A dump at a level is the dump at level 0 moved to the right: each line starts with that many bars more. *)
Theorem C55_level_relations : forall (cfg : config) (v : option vector) (u : list relation) (l : list (list relation)),
  uniform_dump (osl_vector_idump (cfg := cfg) v) /\ uniform_dump (osl_relation_idump (cfg := cfg) u) /\ uniform_dump (osl_relation_list_idump (cfg := cfg) l).
Proof. intros cfg v u l. split; [|split]; apply lev_uniform; [apply lev_vector|apply lev_relation|apply lev_list]. Qed.
Print Assumptions C55_level_relations.

Theorem C55_level_strings : forall s b i, one_line_strings s -> match b with Some b => one_line_body b | None => True end -> Forall (fun i => one_line (if_uri i)) i ->
  uniform_dump (fun l => Ok (osl_strings_idump s l)) /\ uniform_dump (fun l => Ok (osl_body_idump b l)) /\ uniform_dump (osl_interface_idump i).
Proof.
  intros s b i Hs Hb Hi. split; [|split]; apply lev_uniform; [now apply lev_ok, lev_strings|now apply lev_ok, lev_body|now apply lev_interface].
Qed.
Print Assumptions C55_level_strings.

Theorem C55_level_names : forall x : names, Forall no_nl (elems (n_params x)) -> Forall no_nl (elems (n_iters x)) -> Forall no_nl (elems (n_scatt x)) ->
  Forall no_nl (elems (n_locals x)) -> Forall no_nl (elems (n_arrays x)) -> uniform_dump (fun l => Ok (osl_names_idump (Some x) l)).
Proof. intros x H1 H2 H3 H4 H5. apply lev_uniform, lev_ok, lev_names. intros n [= <-]. auto. Qed.
Print Assumptions C55_level_names.

(** Statements, scops and what they hold.  [fuel] bounds how often dependences lead from one statement to another. *)
Theorem C55_level_scop : forall (cfg : config) (pointed : dependence -> option statement * option statement) fuel l,
  each_pointed pointed one_line_statement -> Forall one_line_scop l -> uniform_dump (osl_scop_idump (cfg := cfg) pointed fuel l).
Proof. intros cfg pointed fuel l Hp H. apply lev_uniform. apply lev_scops; [now apply lev_one|exact H]. Qed.
Print Assumptions C55_level_scop.
Theorem C55_level_statement : forall (cfg : config) (pointed : dependence -> option statement * option statement) fuel l,
  each_pointed pointed one_line_statement -> Forall one_line_statement l -> uniform_dump (osl_statement_idump (cfg := cfg) pointed fuel l).
Proof. intros cfg pointed fuel l Hp H. apply lev_uniform. apply lev_statements; [now apply lev_one|exact H]. Qed.
Print Assumptions C55_level_statement.
Theorem C55_level_generic : forall (cfg : config) (pointed : dependence -> option statement * option statement) fuel g y d,
  each_pointed pointed one_line_statement -> one_line_generics g -> Forall (symbol_inside one_line_data) y ->
  uniform_dump (osl_generic_idump (cfg := cfg) pointed fuel g) /\ uniform_dump (osl_symbols_idump (cfg := cfg) pointed fuel y) /\
  uniform_dump (osl_dependence_idump (cfg := cfg) pointed (statement_idump_one pointed fuel) d).
Proof.
  intros cfg pointed fuel g y d Hp Hg Hy. split; [|split]; apply lev_uniform; [apply lev_generic|apply lev_symbols|apply lev_dependence]; auto; now apply lev_one.
Qed.
Print Assumptions C55_level_generic.
(** The functions of the other extensions *)
Theorem C55_level_extensions : forall a c m t n o s si e lo u,
  match a with Some a => Forall (fun x => no_nl (snd x)) a | None => True end ->
  match o with Some o => one_line (co_name o) | None => True end ->
  match s with Some s => one_line_strings s | None => True end ->
  match e with Some e => match eb_body e with Some b => one_line_body b | None => True end | None => True end ->
  Forall (fun x => one_line (lo_iter x) /\ one_line (lo_private x) /\ one_line (lo_user x)) lo ->
  Forall (fun x => one_line (un_iter x)) u ->
  uniform_dump (fun l => Ok (osl_arrays_idump a l)) /\ uniform_dump (osl_clay_idump c) /\ uniform_dump (osl_comment_idump m) /\
  uniform_dump (osl_textual_idump t) /\ uniform_dump (fun l => Ok (osl_null_idump n l)) /\ uniform_dump (fun l => Ok (osl_coordinates_idump o l)) /\
  uniform_dump (fun l => Ok (osl_scatnames_idump s l)) /\ uniform_dump (fun l => Ok (osl_scatinfos_idump si l)) /\
  uniform_dump (fun l => Ok (osl_extbody_idump e l)) /\ uniform_dump (osl_loop_idump lo) /\ uniform_dump (osl_pluto_unroll_idump u).
Proof.
  intros a c m t n o s si e lo u Ha Ho Hs He Hlo Hu. repeat split; apply lev_uniform.
  - now apply lev_ok, lev_arrays.
  - apply lev_clay.
  - apply lev_comment.
  - apply lev_textual.
  - apply lev_ok, lev_null.
  - now apply lev_ok, lev_coordinates.
  - now apply lev_ok, lev_scatnames.
  - apply lev_ok, lev_scatinfos.
  - now apply lev_ok, lev_extbody.
  - now apply lev_loop.
  - now apply lev_unroll.
Qed.
Print Assumptions C55_level_extensions.

(** ** Exact texts *)
Theorem C55_relation_text : forall (cfg : config) u level, dumpable_union cfg u ->
  osl_relation_idump (cfg := cfg) u level = Ok (in_lines (union_lines level u)).
Proof. intros cfg u level H. now apply union_text. Qed.
Print Assumptions C55_relation_text.
Theorem C55_vector_text : forall (cfg : config) v level, dumpable_vector cfg v ->
  osl_vector_idump (cfg := cfg) (Some v) level =
  Ok (in_lines [(level, lit "+-- osl_vector_t (" ++ precision_text (vprec v) ++ lit ")"); (level + 1, print_Z (vsize v));
                (level + 1, lit "[ " ++ spaced (vv v) ++ lit "]"); (level + 1, [])]).
Proof. intros cfg v level H. now apply vector_text. Qed.
Print Assumptions C55_vector_text.

(** ** The dump ends *)
Theorem C55_scop_dumped : forall (cfg : config) pointed n fuel l level, Forall (dumpable_scop cfg pointed n) l -> (n <= fuel)%nat ->
  exists t, osl_scop_idump (cfg := cfg) pointed fuel l level = Ok t.
Proof. intros cfg pointed n fuel l level H Hf. now apply (total_scop_fuel pointed n). Qed.
Print Assumptions C55_scop_dumped.
Theorem C55_statement_dumped : forall (cfg : config) pointed n fuel l level, Forall (dumpable_statement cfg pointed n) l -> (n <= fuel)%nat ->
  exists t, osl_statement_idump (cfg := cfg) pointed fuel l level = Ok t.
Proof. intros cfg pointed n fuel l level H Hf. now apply (total_statement_fuel pointed n). Qed.
Print Assumptions C55_statement_dumped.
(** The bound on the nesting does not matter. *)
Theorem C55_fuel : forall (cfg : config) pointed fuel fuel' l level t, (fuel <= fuel')%nat ->
  osl_scop_idump (cfg := cfg) pointed fuel l level = Ok t -> osl_scop_idump (cfg := cfg) pointed fuel' l level = Ok t.
Proof. intros cfg pointed fuel fuel' l level t Hf. apply more_scops. intros s k. now apply more_one. Qed.
Print Assumptions C55_fuel.

(** ** Nothing is missing: equal dumps come from equal values *)
Theorem C55_scop_shown : forall (cfg : config) pointed fuel x y level t, 0 <= level -> each_pointed pointed (clear_statement cfg) ->
  Forall (clear_scop cfg) x -> Forall (clear_scop cfg) y ->
  osl_scop_idump (cfg := cfg) pointed fuel x level = Ok t -> osl_scop_idump (cfg := cfg) pointed fuel y level = Ok t -> x = y.
Proof.
  intros cfg pointed fuel x y level t Hl Hp Hx Hy Ex Ey. now apply (code_scops pointed _ (code_one pointed fuel Hp) Hp x y level t t [] []).
Qed.
Print Assumptions C55_scop_shown.
Theorem C55_statement_shown : forall (cfg : config) pointed fuel x y level t, 0 <= level -> each_pointed pointed (clear_statement cfg) ->
  Forall (clear_statement cfg) x -> Forall (clear_statement cfg) y ->
  osl_statement_idump (cfg := cfg) pointed fuel x level = Ok t -> osl_statement_idump (cfg := cfg) pointed fuel y level = Ok t -> x = y.
Proof.
  intros cfg pointed fuel x y level t Hl Hp Hx Hy Ex Ey. now apply (code_statements pointed _ (code_one pointed fuel Hp) Hp x y level t t [] []).
Qed.
Print Assumptions C55_statement_shown.
Theorem C55_generic_shown : forall (cfg : config) pointed fuel x y level t, 0 <= level -> each_pointed pointed (clear_statement cfg) ->
  clear_generics cfg x -> clear_generics cfg y ->
  osl_generic_idump (cfg := cfg) pointed fuel x level = Ok t -> osl_generic_idump (cfg := cfg) pointed fuel y level = Ok t -> x = y.
Proof.
  intros cfg pointed fuel x y level t Hl Hp Hx Hy Ex Ey. now apply (code_generic pointed _ (code_one pointed fuel Hp) Hp x y level t t [] []).
Qed.
Print Assumptions C55_generic_shown.
Theorem C55_relation_shown : forall (cfg : config) x y level t, 0 <= level -> clear_union cfg x -> clear_union cfg y ->
  osl_relation_idump (cfg := cfg) x level = Ok t -> osl_relation_idump (cfg := cfg) y level = Ok t -> x = y.
Proof. intros cfg x y level t Hl Hx Hy Ex Ey. now apply (code_union x y level t t [] []). Qed.
Print Assumptions C55_relation_shown.
Theorem C55_vector_shown : forall (cfg : config) x y level t, 0 <= level -> wf_vec cfg x -> wf_vec cfg y ->
  osl_vector_idump (cfg := cfg) (Some x) level = Ok t -> osl_vector_idump (cfg := cfg) (Some y) level = Ok t -> x = y.
Proof.
  intros cfg x y level t Hl Hx Hy Ex Ey. destruct (code_vector (Some x) (Some y) level t t [] [] Hl Hx Hy Ex Ey eq_refl) as [E _]. now injection E.
Qed.
Print Assumptions C55_vector_shown.

(** ** Where it fails *)
(** A dependence read from a file points to no statement: its dump dereferences NULL.  So does that of a NULL annotation and those of
    comments, scripts and texts which hold no string. *)
Theorem C55_null_refuted : forall fuel level,
  (exists d, osl_dependence_idump (cfg := lp64_debug) (fun _ => (None, None)) (statement_idump_one (cfg := lp64_debug) (fun _ => (None, None)) fuel) [d] level = UB) /\
  osl_annotation_idump None level = UB /\ osl_clay_idump (Some None) level = UB /\ osl_comment_idump (Some None) level = UB /\ osl_textual_idump (Some None) level = UB.
Proof. intros fuel level. split; [|repeat split]. exists (Dependence 0 0 0 0 1 1 [] [0; 0; 0; 0; 0; 0; 0; 0]). reflexivity. Qed.
Print Assumptions C55_null_refuted.
(** A GMP number of 2048 digits or more: the buffer of osl_int_print is too short. *)
Lemma dval_bound ds : forall a, digits ds -> 0 <= a -> dval ds a < (a + 1) * 10 ^ zlength ds.
Proof.
  induction ds as [|c ds IH]; intros a Hd Ha; [change (zlength []) with 0; change (10 ^ 0) with 1; unfold dval; cbn [fold_left]; lia|]. inversion Hd as [|? ? Hc Hd']; subst.
  change (dval (c :: ds) a) with (dval ds (10 * a + digit_val c)). rewrite zlength_cons. pose proof (zlength_nonneg ds).
  replace (1 + zlength ds) with (Z.succ (zlength ds)) by lia. rewrite Z.pow_succ_r by assumption.
  assert (0 <= digit_val c <= 9) by (unfold is_digit in Hc; unfold digit_val; apply andb_true_iff in Hc as [H1 H2]; lia).
  specialize (IH (10 * a + digit_val c) Hd' ltac:(lia)). pose proof (Z.pow_pos_nonneg 10 (zlength ds) ltac:(lia) ltac:(lia)). nia.
Qed.
Lemma print_Z_long v k : 0 <= k -> 10 ^ k <= v -> k < zlength (print_Z v).
Proof.
  intros Hk Hv. assert (0 < 10 ^ k) by (apply Z.pow_pos_nonneg; lia). unfold print_Z. destruct (Z.ltb_spec v 0); [lia|]. unfold print_nat_Z.
  destruct (digits_loop_ok (S (Z.to_nat (Z.log2 v))) v) as [Hd Ev].
  { split; [lia|]. rewrite Nat2Z.inj_succ, Z2Nat.id by apply Z.log2_nonneg. apply Z.log2_spec. lia. }
  pose proof (dval_bound _ 0 Hd ltac:(lia)) as B. rewrite Ev in B. rewrite Z.mul_1_l in B.
  destruct (Z.lt_ge_cases k (zlength (digits_loop (S (Z.to_nat (Z.log2 v))) v []))) as [L|L]; [exact L|].
  apply (Z.pow_le_mono_r 10) in L; [|lia]. lia.
Qed.
Theorem C55_int_refuted : forall v, 10 ^ 2047 <= v ->
  wf_vec lp64_debug (mkvec PRECISION_MP 1 [v]) /\ forall level, osl_vector_idump (cfg := lp64_debug) (Some (mkvec PRECISION_MP 1 [v])) level = UB.
Proof.
  intros v Hv. split; [split; [now right; right|]; split; [reflexivity|]; constructor; [|constructor]|]; [now right; right|]. intros level. unfold osl_vector_idump. cbn [vsize vv vprec].
  assert (E : osl_int_print (cfg := lp64_debug) PRECISION_MP v = UB).
  { unfold osl_int_print. change (osl_int_sprint (cfg := lp64_debug) PRECISION_MP v) with (Ok (pad4 (print_Z v))). cbn [bind]. unfold buf_store.
    destruct (Z.ltb_spec (zlength (pad4 (print_Z v))) MAX_STRING) as [H|H]; [|reflexivity]. exfalso.
    pose proof (print_Z_long v 2047 ltac:(lia) Hv). unfold pad4, MAX_STRING in H. rewrite zlength_app in H. pose proof (zlength_nonneg (repeat c_sp (4 - List.length (print_Z v)))). lia. }
  rewrite cfor_step by lia. cbn [bind]. change (aget [v] 0) with (Ok v). cbn [bind]. rewrite E. reflexivity.
Qed.
Print Assumptions C55_int_refuted.
(** The lines of the texts of annotations and regions, and the contents of an irregular extension, are not indented. *)
Theorem C55_texts_refuted :
  (exists a, an_suffix a = [] /\ ~ uniform_dump (osl_annotation_idump (Some a))) /\
  (exists r, re_suffix r = [] /\ re_prelude r = [] /\ re_postlude r = [] /\ ~ uniform_dump (osl_region_idump [r])) /\
  (exists x, ir_predicates x = [] /\ ~ uniform_dump (osl_irregular_idump (Some x))).
Proof.
  split; [|split].
  - exists (Annotation [(1, Some (lit "x"))] []). split; [reflexivity|]. intros H. specialize (H 1 ltac:(lia)). vm_compute in H. discriminate.
  - exists (Region 1 [(1, Some (lit "x"))] [] [] []). repeat split. intros H. specialize (H 1 ltac:(lia)). vm_compute in H. discriminate.
  - exists (Irregular [[1]; [2]] 0 0 []). split; [reflexivity|]. intros H. specialize (H 1 ltac:(lia)). vm_compute in H. discriminate.
Qed.
Print Assumptions C55_texts_refuted.
(** A prefix cannot be told from a suffix. *)
Theorem C55_annotation_refuted : exists a b, a <> b /\ forall level, osl_annotation_idump (Some a) level = osl_annotation_idump (Some b) level.
Proof.
  exists (Annotation [(1, Some (lit "x"))] []), (Annotation [] [(1, Some (lit "x"))]). split; [discriminate|]. intros level. reflexivity.
Qed.
Print Assumptions C55_annotation_refuted.
(** Two words or one with a space; a text or another one that differs in the middle or by a newline; NULL or the string (null) *)
Theorem C55_strings_refuted :
  (exists a b : strings, a <> b /\ forall level, osl_strings_idump (Some a) level = osl_strings_idump (Some b) level) /\
  (exists a b : str, a <> b /\ no_nl a /\ no_nl b /\ forall level, osl_textual_idump (Some (Some a)) level = osl_textual_idump (Some (Some b)) level) /\
  (exists a b : str, a <> b /\ forall level, osl_comment_idump (Some (Some a)) level = osl_comment_idump (Some (Some b)) level) /\
  (exists a b : unroll, a <> b /\ one_line (un_iter a) /\ forall level, osl_pluto_unroll_idump [a] level = osl_pluto_unroll_idump [b] level).
Proof.
  split; [|split; [|split]].
  - exists (Some [lit "a b"]), (Some [lit "a"; lit "b"]). split; [discriminate|]. reflexivity.
  - exists (lit "0123456789012345678901234567890123456789A01234567890123456789"), (lit "0123456789012345678901234567890123456789B01234567890123456789").
    split; [discriminate|]. split; [now apply no_nl_lit|]. split; [now apply no_nl_lit|]. intros level. reflexivity.
  - exists (lit "a b"), (lit "a" ++ [c_nl] ++ lit "b"). split; [discriminate|]. reflexivity.
  - exists (Unroll (Some (lit "(null)")) true 4), (Unroll None true 4). split; [discriminate|]. split; [now apply no_nl_lit|]. reflexivity.
Qed.
Print Assumptions C55_strings_refuted.
(** A statement that holds a dependence on itself: the dump does not end. *)
Definition loop_dep := Dependence 0 0 0 0 1 1 [] [0; 0; 0; 0; 0; 0; 0; 0].
Definition loop_statement := Statement [] [] [] [Generic (Some (osl_interface_of KDependence)) (Some (DDependence [loop_dep]))].
Theorem C55_cycle_refuted : forall fuel level,
  osl_statement_idump (cfg := lp64_debug) (fun _ => (Some loop_statement, Some loop_statement)) fuel [loop_statement] level = OutOfFuel.
Proof.
  set (p := fun _ : dependence => (Some loop_statement, Some loop_statement)).
  assert (S : forall one, (forall l, one loop_statement l = OutOfFuel) -> forall l, statements_idump (cfg := lp64_debug) p one [loop_statement] l = OutOfFuel).
  { intros one H l.
    assert (D : forall k, osl_dependence_idump (cfg := lp64_debug) p one [loop_dep] k = OutOfFuel).
    { intros k. unfold osl_dependence_idump. rewrite nodes_cons. unfold dependence_node at 1. change (fst (p loop_dep)) with (Some loop_statement). unfold pointed_idump at 1. rewrite H. reflexivity. }
    assert (G : forall k n, generic_node (cfg := lp64_debug) p one k n (Generic (Some (osl_interface_of KDependence)) (Some (DDependence [loop_dep]))) = OutOfFuel).
    { intros k n. change (generic_node (cfg := lp64_debug) p one k n (Generic (Some (osl_interface_of KDependence)) (Some (DDependence [loop_dep])))) with
        (ti <- osl_interface_idump [osl_interface_of KDependence] (k + 1) ;; td <- osl_dependence_idump (cfg := lp64_debug) p one [loop_dep] (k + 1) ;;
         Ok (next_title n k (lit "|   osl_generic_t") ++ line (k + 2) [] ++ ti ++ td)). rewrite D. reflexivity. }
    unfold statements_idump. rewrite nodes_cons. unfold statement_node at 1. cbn [st_domain st_scattering st_access st_ext loop_statement].
    unfold generic_idump at 1, generics_idump at 1. rewrite nodes_cons, G. reflexivity. }
  intros fuel level. apply S. clear level. induction fuel as [|k IH]; intros l; [reflexivity|]. cbn [statement_idump_one]. now apply S.
Qed.
Print Assumptions C55_cycle_refuted.

(** ** Witnesses *)
Definition dump_statement : statement :=
  Statement [ex_domain; ex_domain] [ex_scattering] [[ex_read]; [ex_read]]
    [Generic (Some (osl_interface_of KBody)) (Some (DBody (Body (Some (Some [lit "i"; lit "j"])) (Some (Some [lit "x = 1;"])))))].
Definition dump_pointed (d : dependence) : option statement * option statement := (Some dump_statement, Some dump_statement).
Definition dump_dependence := Dependence 1 2 0 0 1 2 [ex_domain] [0; 0; 0; 0; 0; 0; 0; 0].
Definition dump_scop : scop :=
  Scop 1 (Some (lit "C")) [ex_context] [Generic (Some (osl_interface_of KStrings)) (Some (DStrings (Some [lit "N"])))]
    [dump_statement; dump_statement] default_registry
    [Generic (Some (osl_interface_of KSymbols)) (Some sample_symbols);
     Generic (Some (osl_interface_of KArrays)) (Some (DArrays [(1, lit "A")]));
     Generic (Some (osl_interface_of KDependence)) (Some (DDependence [dump_dependence; dump_dependence]))].
Lemma dump_wf r : In r [ex_context; ex_domain; ex_scattering; ex_read] -> dumpable_relation lp64_debug r /\ clear_relation lp64_debug r.
Proof.
  intros Hr. assert (W : wf_rel lp64_debug r /\ Forall (Forall (fun v => Z.abs v <= 4)) (rows r) /\ known_type (rtype r)).
  { cbn in Hr. repeat (destruct Hr as [<-|Hr]); try destruct Hr; (split; [unfold wf_rel; cbn [rtype rprec nrows ncols nout nin nloc npar rm ex_context ex_domain ex_scattering ex_read]; wf_lit|]);
      (split; [repeat constructor; cbn; lia|cbn; tauto]). }
  destruct W as (W & B & T). split; [|now split]. split; [exact W|]. revert B. apply Forall_impl. intros row. apply Forall_impl. intros v Hv. unfold dumpable_int.
  assert (10 ^ 1 <= 10 ^ 2046) by (apply Z.pow_le_mono_r; lia). change (10 ^ 1) with 10 in *. lia.
Qed.
Lemma dump_known (P : relation -> Prop) : (forall r, In r [ex_context; ex_domain; ex_scattering; ex_read] -> P r) ->
  Forall P [ex_context] /\ Forall P [ex_domain] /\ Forall P [ex_domain; ex_domain] /\ Forall P [ex_scattering] /\ Forall P [ex_read].
Proof. intros H. repeat split; repeat constructor; apply H; cbn; tauto. Qed.
Lemma dump_statement_ok n : dumpable_statement lp64_debug dump_pointed n dump_statement.
Proof.
  assert (F : forall P, dumpable_statement_with lp64_debug dump_pointed P dump_statement).
  { intros P. destruct (dump_known (dumpable_relation lp64_debug)) as (H1 & H2 & H3 & H4 & H5); [intros r Hr; now apply dump_wf|].
    split; [exact H3|]. split; [exact H4|]. split; [constructor; [exact H5|constructor; [exact H5|constructor]]|]. constructor; [|constructor]. cbn. auto. }
  destruct n; apply F.
Qed.
Example C55_dumpable_witness : dumpable_scop lp64_debug dump_pointed 1 dump_scop /\
  exists t, osl_scop_dump (cfg := lp64_debug) dump_pointed 1 [dump_scop; dump_scop] = Ok t /\ zlength t = 19645.
Proof.
  split; [|eexists; split; [vm_compute; reflexivity|vm_compute; reflexivity]].
  destruct (dump_known (dumpable_relation lp64_debug)) as (H1 & H2 & H3 & H4 & H5); [intros r Hr; now apply dump_wf|].
  split; [exact H1|]. split; [constructor; [cbn; auto|constructor]|]. split; [constructor; [apply (dump_statement_ok 1)|constructor; [apply (dump_statement_ok 1)|constructor]]|].
  assert (DD : dumpable_dependence lp64_debug dump_pointed (dumpable_statement lp64_debug dump_pointed 0) dump_dependence).
  { split; [exact H2|]. split; exists dump_statement; (split; [reflexivity|apply dump_statement_ok]). }
  constructor; [|constructor; [|constructor; [|constructor]]].
  - cbn [generic_inside data_inside symbol_inside sample_symbols fold_right]. split; [now split|]. split; [|exact I].
    split; [split; [split; [now split|]; exact I|exact I]|]. split; [exact I|]. split; [split; [split; [split; [exact I|exact H2]|exact I]|exact I]|].
    split; [split; [split; [exact I|discriminate]|exact I]|]. split; [split; [discriminate|exact I]|exact I].
  - split; [split; exact I|exact I].
  - split; [split; [exact I|constructor; [exact DD|constructor; [exact DD|constructor]]]|exact I].
Qed.
Lemma word_lit s : negb (match s with EmptyString => true | _ => false end) && forallb (fun c => negb (is_space c)) (lit s) = true -> a_word (lit s).
Proof.
  intros H. apply andb_true_iff in H as [H1 H2]. split; [destruct s; discriminate|]. apply Forall_forall. intros c Hc. rewrite forallb_forall in H2. apply negb_true_iff. auto.
Qed.
Example C55_one_line_witness : one_line_scop dump_scop /\ each_pointed dump_pointed one_line_statement.
Proof.
  assert (U : forall k, one_line (if_uri (osl_interface_of k))) by (intros k; apply uri_no_nl).
  assert (S : one_line_statement dump_statement).
  { constructor; [|constructor]. cbn [generic_inside]. split; [|exact I]. split; [apply U|]. split; cbn; repeat (constructor; [now apply no_nl_lit|]); constructor. }
  split.
  - split; [now apply no_nl_lit|]. split; [|split; [|split]].
    + constructor; [|constructor]. split; [|exact I]. split; [apply U|]. cbn. constructor; [now apply no_nl_lit|constructor].
    + constructor; [exact S|constructor; [exact S|constructor]].
    + apply Forall_forall. intros i Hi. apply in_map_iff in Hi as (k & <- & _). apply U.
    + constructor; [|constructor; [|constructor; [|constructor]]].
      * cbn [generic_inside data_inside symbol_inside sample_symbols fold_right]. split; [split; [apply U|exact I]|]. split; [|exact I].
        split; [split; [split; [split; [apply U|]|exact I]|exact I]|]. { cbn. constructor; [now apply no_nl_lit|constructor]. }
        split; [exact I|]. split; [split; [split; [split; [apply U|exact I]|exact I]|exact I]|].
        split; [split; [split; [apply U|exact I]|exact I]|]. split; [split; [split; [apply U|exact I]|exact I]|exact I].
      * split; [split; [apply U|]|exact I]. constructor; [now apply no_nl_lit|constructor].
      * split; [split; [apply U|exact I]|exact I].
  - intros d s [E|E]; cbn in E; injection E as <-; exact S.
Qed.
Example C55_clear_witness : clear_scop lp64_debug dump_scop /\ each_pointed dump_pointed (clear_statement lp64_debug).
Proof.
  destruct (dump_known (clear_relation lp64_debug)) as (H1 & H2 & H3 & H4 & H5); [intros r Hr; now apply dump_wf|].
  assert (S : clear_statement lp64_debug dump_statement).
  { split; [exact H3|]. split; [exact H4|]. split; [constructor; [exact H5|constructor; [exact H5|constructor]]|]. constructor; [|constructor].
    split; [|exact I]. split; [|exact I]. split; [reflexivity|]. split.
    - right. exists [lit "i"; lit "j"]. split; [reflexivity|]. constructor; [now apply word_lit|constructor; [now apply word_lit|constructor]].
    - right. exists (lit "x = 1;"). split; [reflexivity|]. now apply no_nl_lit. }
  split.
  - split; [split; [now apply no_nl_lit|discriminate]|]. split; [exact H1|]. split; [|split; [|split]].
    + constructor; [|constructor]. split; [|exact I]. split; [|exact I]. split; [reflexivity|]. right. exists [lit "N"]. split; [reflexivity|]. constructor; [now apply word_lit|constructor].
    + constructor; [exact S|constructor; [exact S|constructor]].
    + apply Forall_forall. intros i Hi. apply in_map_iff in Hi as (k & <- & _). reflexivity.
    + assert (CD : clear_dependence lp64_debug dump_dependence) by (split; [cbn; tauto|split; [reflexivity|exact H2]]).
      constructor; [|constructor; [|constructor; [|constructor]]].
      * split; [|cbn; tauto]. cbn [generic_inside data_inside symbol_inside sample_symbols fold_right]. split; [split; [reflexivity|split; [discriminate|constructor; [cbn; tauto|constructor]]]|]. split; [|exact I].
        split; [split; [split; [split; [reflexivity|]|exact I]|exact I]|]. { right. exists [lit "i"]. split; [reflexivity|]. constructor; [now apply word_lit|constructor]. }
        split; [exact I|]. split; [split; [split; [split; [reflexivity|split; [discriminate|exact H2]]|exact I]|exact I]|].
        split; [split; [split; [reflexivity|exists (lit "c"); split; [reflexivity|now apply no_nl_lit]]|exact I]|]. split; [split; [split; [reflexivity|exact I]|exact I]|exact I].
      * split; [|exact I]. split; [split; [reflexivity|]|exact I]. constructor; [now apply no_nl_lit|constructor].
      * split; [|exact I]. split; [split; [reflexivity|split; [discriminate|constructor; [exact CD|constructor; [exact CD|constructor]]]]|exact I].
  - intros d s [E|E]; cbn in E; injection E as <-; exact S.
Qed.
(** A dump, at level 0 and at level 1 *)
Example C55_text_witness :
  osl_relation_dump (cfg := lp64_debug) [ex_context] = Ok (lit "+-- osl_relation_t (CONTEXT, 64 bits)" ++ [c_nl] ++ bar ++ lit "1 3 0 0 0 1" ++ [c_nl]
    ++ bar ++ lit "[    1    1   -1 ]" ++ [c_nl] ++ bar ++ [c_nl]) /\
  osl_relation_idump (cfg := lp64_debug) [] 1 = Ok (bar ++ lit "+-- NULL relation" ++ [c_nl] ++ bar ++ bar ++ [c_nl]).
Proof. split; vm_compute; reflexivity. Qed.
