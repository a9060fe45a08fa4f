(** * PropExt2: property C33 for the other extensions *)
From Coq Require Import ZifyBool ZifyNat.
From Verif Require Import Base IntModel VectorModel RelationModel UtilModel StringsModel RelTextModel
  TextSpec Spec RelSpec LoopLemmas TextInt UtilProofs UtilProofs2 PropStrings RelTextProofs RelTextProofs2 RelTextProofs4
  PropUtil ExtModel ExtSpec ExtProofs PropExt.

Lemma str_eqb_refl s : str_eqb s s = true.
Proof. now apply str_eqb_eq. Qed.

(** ** Source coordinates *)
Theorem C33_coordinates_roundtrip : forall c, coordinates_ok c ->
  roundtrip (osl_coordinates_sprint (Some c)) osl_coordinates_sread c /\
  osl_coordinates_clone (Some c) = Some c /\ osl_coordinates_equal (Some c) (Some c) = Ok true.
Proof.
  intros [n ls le cs ce i] ((x & Hn & Hx) & H1 & H2 & H3 & H4 & H5).
  cbn [co_name co_line_start co_line_end co_column_start co_column_end co_indent] in *. subst n. split.
  - eexists. split.
    + unfold osl_coordinates_sprint. cbn [co_name co_line_start co_line_end co_column_start co_column_end co_indent pr].
      destruct Hx as (_ & _ & Hl & _). rewrite store_ok; [cbn [bind]; reflexivity|].
      unfold ln. rewrite !app_length. cbn. lia.
    + intros before after Hb. unfold osl_coordinates_sread. reads. gap [c_nl].
  - split; [reflexivity|]. cbn. rewrite str_eqb_refl, !Z.eqb_refl. reflexivity.
Qed.
Print Assumptions C33_coordinates_roundtrip.
Theorem C33_coordinates_equal : forall a b x y, co_name a = Some x -> co_name b = Some y ->
  exists r, osl_coordinates_equal (Some a) (Some b) = Ok r /\ (r = true <-> a = b).
Proof.
  intros [a a1 a2 a3 a4 a5] [b b1 b2 b3 b4 b5] x y Ha Hb. cbn in Ha, Hb. subst. eexists. split; [reflexivity|].
  cbn. rewrite !andb_true_iff, str_eqb_eq, !Z.eqb_eq. split; [intros (((((-> & ->) & ->) & ->) & ->) & ->); reflexivity|].
  intros H. injection H. auto 10.
Qed.
Print Assumptions C33_coordinates_equal.
Example C33_coordinates_hyp : coordinates_ok (Coordinates (Some (lit "my file.c")) 1 20 3 0 4).
Proof. split; [eexists; split; [reflexivity|llit]|]. repeat split; cbv; discriminate. Qed.
(** A missing file name is read back as the name "(null)", and comparing is undefined. *)
Theorem C33_coordinates_null_refuted : exists text,
  osl_coordinates_sprint (Some (Coordinates None 1 2 3 4 5)) = Ok (Some text) /\
  osl_coordinates_sread text = Ok (Coordinates (Some (lit "(null)")) 1 2 3 4 5, [c_nl]) /\
  osl_coordinates_equal (Some (Coordinates None 1 2 3 4 5)) (Some (Coordinates None 1 2 3 4 5)) = UB.
Proof. eexists. split; [vm_compute; reflexivity|]. split; vm_compute; reflexivity. Qed.
Print Assumptions C33_coordinates_null_refuted.

(** ** Scattering names *)
Theorem C33_scatnames_roundtrip : forall l, l <> [] -> Forall (word_string 2047) l ->
  exists text, osl_scatnames_sprint (Some (Some (Some l))) = Ok (Some text) /\
    (forall before after, blank_text before ->
       osl_scatnames_sread (before ++ text ++ after) = Ok (Some (Some (Some l)), Some after)) /\
    osl_scatnames_equal (osl_scatnames_clone (Some (Some (Some l)))) (Some (Some (Some l))) = true.
Proof.
  intros l Hne H. apply plain_of_words in H. exists (join l ++ [c_nl]). split; [|split].
  - unfold osl_scatnames_sprint, osl_strings_sprint. cbn [elems]. now rewrite sprint_elems_ok.
  - intros before after Hb. unfold osl_scatnames_sread. rewrite rd_strings_blank by assumption.
    rewrite <- app_assoc. cbn [app]. now rewrite strings_sread_ok.
  - cbn [osl_scatnames_equal osl_scatnames_clone]. apply C29_clone_equal.
Qed.
Print Assumptions C33_scatnames_roundtrip.
Theorem C33_scatnames_equal : forall a b, osl_scatnames_equal (Some (Some a)) (Some (Some b)) = true <-> elems a = elems b.
Proof. intros a b. apply C29_equal. Qed.
Print Assumptions C33_scatnames_equal.

(** ** Scattering information *)
Lemma ints_ok l c : Forall c_int l -> (forall v, In v l -> c_int v) -> is_space c = true ->
  forall before after, blank_text before -> exists gap, blank_text gap /\
    read_ints (List.length l) (before ++ flat_map (fun v => print_Z v ++ [c]) l ++ after) = Ok (l, gap ++ after).
Proof.
  intros H _ Hc. rewrite flat_map_concat_map. apply (many_ok osl_util_read_int_s read_ints).
  - reflexivity.
  - reflexivity.
  - apply forall2_map. revert H. apply Forall_impl. intros v Hv before after Hb.
    rewrite rd_int_blank by assumption. rewrite <- app_assoc. cbn [app]. rewrite rd_int; [|assumption|unfold is_tok; now rewrite Hc].
    exists [c]. split; [apply bt_space; [assumption|constructor]|reflexivity].
Qed.
Lemma row_ok n l : n = List.length l -> Forall c_int l -> forall before after, blank_text before -> exists gap, blank_text gap /\
    read_ints n (before ++ print_row l ++ after) = Ok (l, gap ++ after).
Proof. intros -> H. apply (ints_ok l c_sp); [assumption|now apply Forall_forall|reflexivity]. Qed.
Lemma zip3_map (i : scatinfos) : zip3 (map si_parallel i) (map si_permutable i) (map si_type i) = i.
Proof. induction i as [|[a b c] i IH]; cbn; [reflexivity|now rewrite IH]. Qed.

Lemma scatinfos_eqb_iff a : forall b, List.length a = List.length b -> (scatinfos_eqb a b = true <-> a = b).
Proof.
  induction a as [|[x y z] a IH]; intros [|[x' y' z'] b] H; cbn in *; try discriminate; [split; auto|].
  rewrite !andb_true_iff, !Z.eqb_eq, IH by lia. split; [intros (((-> & ->) & ->) & ->); reflexivity|intros E; injection E; auto].
Qed.
Theorem C33_scatinfos_equal : forall a b, osl_scatinfos_equal (Some a) (Some b) = true <-> a = b.
Proof.
  intros a b. cbn. destruct (Z.eqb_spec (zlength a) (zlength b)) as [E|E]; cbn; unfold zlength in E.
  - apply scatinfos_eqb_iff. lia.
  - split; [discriminate|]. intros ->. lia.
Qed.
Print Assumptions C33_scatinfos_equal.
Lemma scatinfos_clone_ok i : osl_scatinfos_clone (Some i) = Ok (Some i).
Proof.
  cbn [osl_scatinfos_clone].
  rewrite <- (zlength_map si_parallel i) at 1. rewrite copy_array_ok by reflexivity. cbn [bind].
  rewrite <- (zlength_map si_permutable i) at 1. rewrite copy_array_ok by reflexivity. cbn [bind].
  rewrite <- (zlength_map si_type i) at 1. rewrite copy_array_ok by reflexivity. cbn [bind].
  do 2 f_equal. induction i as [|[a b c] i IH]; cbn; [reflexivity|]. now rewrite IH.
Qed.
Theorem C33_scatinfos_roundtrip : forall i, count_ok i -> Forall scatinfo_ok i ->
  roundtrip (osl_scatinfos_sprint (Some i)) osl_scatinfos_sread i /\
  osl_scatinfos_clone (Some i) = Ok (Some i) /\ osl_scatinfos_equal (Some i) (Some i) = true.
Proof.
  intros i Hc Hi. split; [|split; [apply scatinfos_clone_ok|now apply C33_scatinfos_equal]]. eexists. split; [reflexivity|].
  intros before after Hb. unfold osl_scatinfos_sread. reads. rewrite count_neg, count_nat.
  assert (F1 : Forall c_int (map si_parallel i) /\ Forall c_int (map si_permutable i) /\ Forall c_int (map si_type i)).
  { rewrite !Forall_map. repeat split; revert Hi; apply Forall_impl; unfold scatinfo_ok; tauto. }
  destruct F1 as (F1 & F2 & F3).
  assert (L : forall f : scatinfo -> Z, List.length i = List.length (map f i)) by (intros; now rewrite map_length).
  destruct i as [|x i].
  - cbn [List.length read_ints bind map print_row flat_map app zip3]. change (0 <? zlength []) with false. cbn [app].
    gap [c_nl].
  - remember (x :: i) as j. destruct (Z.ltb_spec 0 (zlength j)) as [_|X]; [|subst j; unfold zlength in X; cbn in X; lia].
    
    destruct (row_ok _ _ (L si_parallel) F1 (c_nl :: ln (lit "# Parallel info"))
      ((c_nl :: ln (lit "# Permutable info")) ++ print_row (map si_permutable j) ++
       (c_nl :: ln (lit "# Type info")) ++ print_row (map si_type j) ++ [c_nl] ++ after) ltac:(blank)) as (g1 & G1 & E1).
    match goal with |- context [read_ints ?n ?s] => replace (read_ints n s) with (Ok (map si_parallel j, g1 ++ (c_nl :: ln (lit "# Permutable info")) ++ print_row (map si_permutable j) ++
       (c_nl :: ln (lit "# Type info")) ++ print_row (map si_type j) ++ [c_nl] ++ after)) by (symmetry; exact E1) end.
    cbn [bind]. 
    destruct (row_ok _ _ (L si_permutable) F2 (g1 ++ c_nl :: ln (lit "# Permutable info"))
      ((c_nl :: ln (lit "# Type info")) ++ print_row (map si_type j) ++ [c_nl] ++ after)) as (g2 & G2 & E2); [blank; blank|].
    rewrite <- app_assoc in E2.
    match goal with |- context [read_ints ?n ?s] => replace (read_ints n s) with (Ok (map si_permutable j, g2 ++ 
       (c_nl :: ln (lit "# Type info")) ++ print_row (map si_type j) ++ [c_nl] ++ after)) by (symmetry; exact E2) end.
    cbn [bind]. 
    destruct (row_ok _ _ (L si_type) F3 (g2 ++ c_nl :: ln (lit "# Type info")) ([c_nl] ++ after)) as (g3 & G3 & E3); [blank; blank|].
    rewrite <- app_assoc in E3.
    match goal with |- context [read_ints ?n ?s] => replace (read_ints n s) with (Ok (map si_type j, g3 ++ [c_nl] ++ after)) by (symmetry; exact E3) end.
    cbn [bind]. rewrite zip3_map. exists (g3 ++ [c_nl]). split; [blank; blank|now rewrite <- app_assoc].
Qed.
Print Assumptions C33_scatinfos_roundtrip.
Example C33_scatinfos_hyp : count_ok [Scatinfo 1 0 2; Scatinfo 0 0 (-1)] /\ Forall scatinfo_ok [Scatinfo 1 0 2; Scatinfo 0 0 (-1)].
Proof. split; [reflexivity|]. repeat constructor; cbv; discriminate. Qed.

(** ** Numbered lines, annotations and regions *)
Definition line_text (x : Z * option str) : str := print_Z (fst x) ++ [c_sp] ++ ln (pr (snd x)).
Lemma text_prints name l : text_lines_ok l -> text_sprint name l =
  Ok (lit "# " ++ name ++ ln (lit " count ") ++ lnZ (zlength l) ++ lit "# " ++ name ++ ln (lit " lines (if any)") ++ concat (map line_text l)).
Proof.
  intros [_ H]. unfold text_sprint. rewrite (print_all_ok _ line_text); [reflexivity|].
  revert H. apply Forall_impl. intros [t o] (_ & s & Hs & (_ & _ & Hl & _)). cbn [snd fst] in *. subst o.
  cbn [pr]. rewrite (store_ln 2046) by lia. reflexivity.
Qed.
Lemma text_item name l t : text_lines_ok l -> no_nl name -> text_sprint name l = Ok t -> item text_sread l t.
Proof.
  intros H Hname Ht before after Hb. rewrite text_prints in Ht by assumption. apply Ok_inj in Ht. subst t.
  destruct H as [Hc H]. unfold text_sread.
  assert (B : forall w, no_nlb w = true -> blank_text (ln (lit "# " ++ name ++ w))).
  { intros w Hw. apply (blank_ln (lit " " ++ name ++ w)). apply no_nl_app. split; [intros [X|[]]; discriminate|].
    apply no_nl_app. split; [assumption|now apply no_nlb_ok]. }
  assert (E : forall w x, lit "# " ++ name ++ ln w ++ x = ln (lit "# " ++ name ++ w) ++ x).
  { intros w x. unfold ln. now rewrite <- !app_assoc. }
  rewrite <- !app_assoc. rewrite !E. rewrite rd_int_blank by assumption. rewrite rd_int_blank by now apply B.
  rewrite rd_lnZ by now apply count_c_int. cbn [bind]. rewrite count_neg, count_nat.
  apply (many_ok (fun s => '(t, s) <- osl_util_read_int_s s ;; '(x, s) <- osl_util_read_line_s s ;; Ok ((t, Some x), s)) read_lines)
    with (before := c_nl :: ln (lit "# " ++ name ++ lit " lines (if any)")).
  - reflexivity.
  - intros k s. cbn [read_lines]. destruct (osl_util_read_int_s s) as [[i s1]| | |]; cbn [bind]; try reflexivity.
    destruct (osl_util_read_line_s s1) as [[b s2]| | |]; reflexivity.
  - apply forall2_map. revert H. apply Forall_impl. intros [v o] (Hv & s & Hs & Hl) bf af Hbf. cbn [fst snd] in *. subst o.
    unfold line_text. cbn [fst snd pr]. reads. gap [c_nl].
  - apply bt_space; [reflexivity|]. now apply B.
Qed.
Definition full_lines (l : text_lines) : Prop := Forall (fun x => snd x <> None) l.
Lemma text_full l : text_lines_ok l -> full_lines l.
Proof. intros [_ H]. revert H. apply Forall_impl. intros x (_ & s & -> & _). discriminate. Qed.
Lemma text_equal_iff a b : full_lines a -> full_lines b -> exists r, text_equal a b = Ok r /\ (r = true <-> a = b).
Proof.
  unfold text_equal. intros Ha Hb. destruct (Z.eqb_spec (zlength a) (zlength b)) as [E|E]; cbn [negb].
  - revert b Hb E. induction Ha as [|[t x] a Hx Ha IH]; intros b Hb E; inversion Hb as [|[u y] b' Hy Hb']; subst; try (unfold zlength in E; cbn in E; lia).
    + exists true. split; [reflexivity|tauto].
    + cbn [lines_equal]. destruct (Z.eqb_spec t u) as [->|Ne]; cbn [negb].
      2: { exists false. split; [reflexivity|]. split; [discriminate|]. intros X. injection X as X _. congruence. }
      cbn [snd] in *. destruct x as [x|]; [|congruence]. destruct y as [y|]; [|congruence]. cbn [strcmp_eq bind].
      destruct (str_eqb x y) eqn:Exy.
      * apply str_eqb_eq in Exy. subst y. destruct (IH b' Hb') as (r & -> & Hr); [rewrite !zlength_cons in E; lia|].
        exists r. split; [reflexivity|]. rewrite Hr. split; [now intros ->|intros X; now injection X].
      * exists false. split; [reflexivity|]. split; [discriminate|]. intros X. injection X as X _. subst. rewrite str_eqb_refl in Exy. discriminate.
  - exists false. split; [reflexivity|]. split; [discriminate|]. intros ->. congruence.
Qed.
Lemma text_clone_ok l : full_lines l -> text_clone l = Ok l.
Proof.
  unfold text_clone. induction 1 as [|[t [x|]] l Hx Hl IH]; cbn in *; [reflexivity| |congruence].
  rewrite IH. reflexivity.
Qed.
Lemma text_prints_ex name l : text_lines_ok l -> exists t, text_sprint name l = Ok t.
Proof. intros H. rewrite text_prints by assumption. eauto. Qed.

Theorem C33_annotation_equal : forall a b,
  Forall (fun x => snd x <> None) (an_prefix a ++ an_suffix a) -> Forall (fun x => snd x <> None) (an_prefix b ++ an_suffix b) ->
  exists r, osl_annotation_equal (Some a) (Some b) = Ok r /\ (r = true <-> a = b).
Proof.
  intros [p s] [p' s'] H H'. cbn [an_prefix an_suffix] in *. apply Forall_app in H as [Hp Hs], H' as [Hp' Hs'].
  cbn [osl_annotation_equal an_prefix an_suffix]. destruct (text_equal_iff p p' Hp Hp') as (r & -> & Hr). cbn [bind].
  destruct r.
  - destruct (text_equal_iff s s' Hs Hs') as (r & -> & Hr'). exists r. split; [reflexivity|]. rewrite Hr'.
    assert (p = p') by now apply Hr. subst. split; [now intros ->|intros X; now injection X].
  - exists false. split; [reflexivity|]. split; [discriminate|]. intros X. injection X as -> ->. now apply Hr.
Qed.
Print Assumptions C33_annotation_equal.
Lemma annotation_full a : annotation_ok a -> Forall (fun x => snd x <> None) (an_prefix a ++ an_suffix a).
Proof. intros [H1 H2]. apply Forall_app. split; now apply text_full. Qed.
Theorem C33_annotation_roundtrip : forall a, annotation_ok a ->
  roundtrip (osl_annotation_sprint (Some a)) osl_annotation_sread a /\
  osl_annotation_clone (Some a) = Ok a /\ osl_annotation_equal (Some a) (Some a) = Ok true.
Proof.
  intros a H. split; [|split].
  - destruct a as [p s], H as [Hp Hs]. cbn [an_prefix an_suffix] in *.
    destruct (text_prints_ex (lit "Prefix") p Hp) as [tp Ep]. destruct (text_prints_ex (lit "Suffix") s Hs) as [ts Es].
    eexists. split.
    + unfold osl_annotation_sprint. cbn [an_prefix an_suffix]. rewrite Ep, Es. cbn [bind]. reflexivity.
    + intros before after Hb. unfold osl_annotation_sread.
      destruct (text_item _ p tp Hp (no_nlb_ok (lit "Prefix") eq_refl) Ep (before ++ ln (lit "# ===========================================")) (ts ++ after)) as (g & Hg & E); [blank; blank|].
      rewrite <- !app_assoc in E. rewrite <- !app_assoc. rewrite E. cbn [bind].
      destruct (text_item _ s ts Hs (no_nlb_ok (lit "Suffix") eq_refl) Es g after Hg) as (g' & Hg' & E'). rewrite E'. cbn [bind]. gap g'.
  - pose proof (annotation_full a H) as F. destruct a as [p s]. cbn [an_prefix an_suffix] in F. apply Forall_app in F as [F1 F2].
    cbn [osl_annotation_clone an_prefix an_suffix]. now rewrite !text_clone_ok.
  - destruct (C33_annotation_equal a a (annotation_full a H) (annotation_full a H)) as (r & -> & Hr). f_equal. now apply Hr.
Qed.
Print Assumptions C33_annotation_roundtrip.

Lemma region_item step count r t : region_ok r -> region_sprint_one step count r = Ok t -> item region_sread_one r t.
Proof.
  destruct r as [l p s pl po]. intros (Hl & Hp & Hs & Hpl & Hpo) Ht before after Hb.
  cbn [re_location re_prefix re_suffix re_prelude re_postlude] in *. unfold region_sprint_one in Ht.
  cbn [re_location re_prefix re_suffix re_prelude re_postlude] in Ht. inv_bind Ht. inv_bind Ht. inv_bind Ht. inv_bind Ht.
  apply Ok_inj in Ht. subst t.
  assert (B : blank_text (lit "# Region number " ++ print_Z step ++ lit " / " ++ print_Z count ++ ln [c_sp])).
  { replace (lit "# Region number " ++ print_Z step ++ lit " / " ++ print_Z count ++ ln [c_sp])
      with (ln (c_hash :: lit " Region number " ++ print_Z step ++ lit " / " ++ print_Z count ++ [c_sp]))
      by (unfold ln; cbn [app]; rewrite <- !app_assoc; reflexivity).
    apply blank_ln. repeat (apply no_nl_app; split); try apply print_Z_no_nl; apply no_nlb_ok; reflexivity. }
  unfold region_sread_one. rewrite <- !app_assoc. rewrite rd_int_blank by assumption. rewrite rd_int_blank by blk.
  match goal with |- context [lit "# Region number " ++ print_Z step ++ lit " / " ++ print_Z count ++ ln [c_sp] ++ ?x] =>
    replace (lit "# Region number " ++ print_Z step ++ lit " / " ++ print_Z count ++ ln [c_sp] ++ x)
    with ((lit "# Region number " ++ print_Z step ++ lit " / " ++ print_Z count ++ ln [c_sp]) ++ x) by (rewrite <- !app_assoc; reflexivity) end.
  rewrite rd_int_blank by assumption. rewrite rd_int_blank by blk. rewrite rd_lnZ by assumption. cbn [bind].
  assert (N : forall w, no_nlb (lit w) = true -> no_nl (lit w)) by (intros; now apply no_nlb_ok).
  destruct (text_item _ p _ Hp (N "Prefix"%string eq_refl) E [c_nl] (v0 ++ v1 ++ v2 ++ after) blank_nl) as (g & Hg & X).
  cbn [app] in X. rewrite X. cbn [bind].
  destruct (text_item _ s _ Hs (N "Suffix"%string eq_refl) E0 g (v1 ++ v2 ++ after) Hg) as (g1 & Hg1 & X1). rewrite X1. cbn [bind].
  destruct (text_item _ pl _ Hpl (N "Prelude"%string eq_refl) E1 g1 (v2 ++ after) Hg1) as (g2 & Hg2 & X2). rewrite X2. cbn [bind].
  destruct (text_item _ po _ Hpo (N "Postlude"%string eq_refl) E2 g2 after Hg2) as (g3 & Hg3 & X3). rewrite X3. cbn [bind].
  gap g3.
Qed.
Lemma region_prints step count r : region_ok r -> exists t, region_sprint_one step count r = Ok t.
Proof.
  intros (_ & Hp & Hs & Hpl & Hpo). unfold region_sprint_one.
  destruct (text_prints_ex (lit "Prefix") _ Hp) as [a ->]. destruct (text_prints_ex (lit "Suffix") _ Hs) as [b ->].
  destruct (text_prints_ex (lit "Prelude") _ Hpl) as [c ->]. destruct (text_prints_ex (lit "Postlude") _ Hpo) as [d ->].
  cbn [bind]. eauto.
Qed.
Lemma regions_print l : Forall region_ok l -> forall step count, exists ts,
  regions_sprint step count l = Ok (concat ts) /\ Forall2 (item region_sread_one) l ts.
Proof.
  induction 1 as [|r l Hr Hl IH]; intros step count; cbn [regions_sprint].
  - exists []. split; [reflexivity|constructor].
  - destruct (region_prints step count r Hr) as [t Ht]. destruct (IH (step + 1) count) as (ts & E & F).
    exists (t :: ts). rewrite Ht, E. split; [reflexivity|]. constructor; [now apply (region_item step count)|assumption].
Qed.
Theorem C33_region_roundtrip : forall l, count_ok l -> Forall region_ok l ->
  roundtrip (osl_region_sprint l) osl_region_sread l /\ osl_region_clone l = Ok l.
Proof.
  intros l Hc H. split.
  - destruct (regions_print l H 1 (zlength l)) as (ts & E & F). eexists. split.
    + unfold osl_region_sprint. rewrite E. cbn [bind]. reflexivity.
    + intros before after Hb. unfold osl_region_sread. reads. rewrite count_neg, count_nat.
      apply (many_ok region_sread_one regions_sread) with (before := [c_nl]) (ts := ts); try reflexivity; [assumption|blank].
  - unfold osl_region_clone. induction H as [|[lo p s pl po] l (_ & Hp & Hs & Hpl & Hpo) Hl IH]; [reflexivity|].
    cbn [re_location re_prefix re_suffix re_prelude re_postlude] in *.
    cbn [mapM re_location re_prefix re_suffix re_prelude re_postlude].
    rewrite !text_clone_ok by now apply text_full. cbn [bind].
    rewrite IH; [reflexivity|]. unfold count_ok in *. cbn [List.length] in Hc. lia.
Qed.
Print Assumptions C33_region_roundtrip.
(** Comparing two lists of regions with the same content is undefined: the end
    of both lists is dereferenced. *)
Theorem C33_region_equal_refuted : forall l, Forall region_ok l -> osl_region_equal l l = UB.
Proof.
  induction 1 as [|r l Hr Hl IH]; [reflexivity|]. cbn [osl_region_equal].
  assert (osl_region_equal_one r r = Ok true) as ->; [|cbn [bind]; exact IH].
  destruct Hr as (_ & Hp & Hs & Hpl & Hpo). unfold osl_region_equal_one. rewrite Z.eqb_refl. cbn [negb].
  assert (T : forall x, text_lines_ok x -> text_equal x x = Ok true).
  { intros x Hx. destruct (text_equal_iff x x (text_full x Hx) (text_full x Hx)) as (b & -> & Hb). f_equal. now apply Hb. }
  rewrite !T by assumption. reflexivity.
Qed.
Print Assumptions C33_region_equal_refuted.
Theorem C33_annotation_null_refuted : osl_annotation_sprint None = UB /\ osl_annotation_clone None = UB.
Proof. split; reflexivity. Qed.
Print Assumptions C33_annotation_null_refuted.
Example C33_annotation_hyp : annotation_ok (Annotation [(2, Some (lit "#pragma"))] [(1, Some (lit "x y"))]) -> False.
Proof. intros [[_ H] _]. apply Forall_inv in H as (_ & s & Hs & (_ & Hh & _)). injection Hs as <-. apply Hh. now left. Qed.
Example C33_annotation_hyp' : annotation_ok (Annotation [(2, Some (lit "pragma omp")); (5, Some (lit "z"))] [(1, Some (lit "x y"))]).
Proof.
  split; (split; [reflexivity|]); repeat (constructor; [split; [cbv; split; discriminate|eexists; split; [reflexivity|llit]]|]); constructor.
Qed.
(** Lines of an annotation that start with '#', such as pragmas, are lost: the next line is taken. *)
Theorem C33_annotation_pragma_refuted : exists a text a' rest,
  osl_annotation_sprint (Some a) = Ok (Some text) /\ osl_annotation_sread text = Ok (a', rest) /\ a' <> a /\
  a = Annotation [(1, Some (lit "#pragma omp for"))] [(0, Some (lit "x"))].
Proof.
  exists (Annotation [(1, Some (lit "#pragma omp for"))] [(0, Some (lit "x"))]). eexists. eexists. eexists.
  split; [vm_compute; reflexivity|]. split; [vm_compute; reflexivity|]. split; [discriminate|reflexivity].
Qed.
Print Assumptions C33_annotation_pragma_refuted.
