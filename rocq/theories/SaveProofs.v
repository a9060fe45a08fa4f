(** * SaveProofs: reading back what was printed, extension by extension *)
From Coq Require Import ZifyBool ZifyNat.
From Verif Require Import Base IntModel VectorModel RelationModel UtilModel StringsModel RelTextModel
  Spec RelSpec TextSpec LoopLemmas TextInt UtilProofs UtilProofs2 PropUtil RelTextProofs RelTextProofs2 RelTextProofs3 RelTextProofs4
  PropStrings PropRelText ExtModel ExtSpec ExtProofs PropExt PropExt2 PropExt3 ScopModel SaveSpec.

Scheme payload_ind' := Minimality for payload_ok Sort Prop
with symbols_ind' := Minimality for symbols_ok Sort Prop
with generic_ind' := Minimality for generic_ok Sort Prop.
Combined Scheme save_ind from payload_ind', symbols_ind', generic_ind'.

(** ** Tags *)
Lemma occurs_free c pat a t : ~ In c a -> ~ occurs (c :: pat) t -> ~ occurs (c :: pat) (a ++ t).
Proof.
  induction a as [|x a IH]; intros Ha Ht (u & v & E); cbn [app] in E; [apply Ht; now exists u, v|].
  destruct u as [|y u]; cbn [app] in E.
  - injection E as -> _. apply Ha. now left.
  - injection E as -> E. apply IH; [intros X; apply Ha; now right|assumption|now exists u, v].
Qed.
Lemma occurs_end c pat t x b : ~ In x (c :: pat) -> ~ In c b -> ~ occurs (c :: pat) t -> ~ occurs (c :: pat) (t ++ x :: b).
Proof.
  intros Hx Hb Ht (u & v & E). destruct (Nat.le_gt_cases (List.length (u ++ c :: pat)) (List.length t)) as [L|L].
  - apply Ht. exists u, (skipn (List.length (u ++ c :: pat)) t). apply (f_equal (firstn (List.length t))) in E.
    rewrite firstn_app, firstn_all, Nat.sub_diag, app_nil_r in E. rewrite app_assoc in E.
    rewrite firstn_app in E. rewrite (firstn_all2 (u ++ c :: pat)) in E by lia.
    rewrite E at 1. rewrite <- app_assoc. f_equal. f_equal.
    rewrite E at 2. rewrite skipn_app, skipn_all, Nat.sub_diag. reflexivity.
  - destruct (Nat.le_gt_cases (List.length u) (List.length t)) as [L2|L2].
    + apply Hx. apply (f_equal (fun l => nth_error l (List.length t))) in E.
      rewrite nth_error_app2, Nat.sub_diag in E by lia. cbn [nth_error] in E.
      rewrite nth_error_app2 in E by lia. rewrite nth_error_app1 in E by (rewrite app_length in L; lia).
      symmetry in E. now apply nth_error_In in E.
    + apply Hb. apply (f_equal (fun l => nth_error l (List.length u))) in E.
      rewrite (nth_error_app2 u), Nat.sub_diag in E by lia. cbn [nth_error app] in E.
      rewrite nth_error_app2 in E by lia. replace (List.length u - List.length t)%nat with (S (List.length u - List.length t - 1)) in E by lia.
      cbn [nth_error] in E. now apply nth_error_In in E.
Qed.
(** A pattern whose first character does not come back in it. *)
Lemma first_flag c pat t rest : ~ In c pat -> ~ occurs (c :: pat) t -> first_occurrence (c :: pat) (t ++ (c :: pat) ++ rest) t rest.
Proof.
  intros Hc Ht. split; [reflexivity|]. intros a b E. destruct (Nat.le_gt_cases (List.length t) (List.length a)) as [L|L]; [assumption|].
  exfalso. destruct (Nat.le_gt_cases (List.length (a ++ c :: pat)) (List.length t)) as [M|M].
  - apply Ht. exists a, (skipn (List.length (a ++ c :: pat)) t). apply (f_equal (firstn (List.length t))) in E.
    rewrite firstn_app, firstn_all, Nat.sub_diag in E. cbn [firstn] in E. rewrite app_nil_r in E. rewrite (app_assoc a) in E.
    rewrite firstn_app in E. rewrite (firstn_all2 (a ++ c :: pat)) in E by lia.
    rewrite E at 1. rewrite <- app_assoc. f_equal. f_equal. rewrite E at 2. rewrite skipn_app, skipn_all, Nat.sub_diag. reflexivity.
  - apply Hc. apply (f_equal (fun l => nth_error l (List.length t))) in E.
    rewrite nth_error_app2, Nat.sub_diag in E by lia. cbn [nth_error app] in E.
    rewrite app_length in M. cbn [List.length] in M.
    rewrite nth_error_app2 in E by lia. replace (List.length t - List.length a)%nat with (S (List.length t - List.length a - 1)) in E by lia.
    cbn [nth_error] in E. rewrite nth_error_app1 in E by lia. symmetry in E. now apply nth_error_In in E.
Qed.
Lemma tag_name_no u c : tag_name u -> is_upper c = false -> is_lower c = false -> ceqb c c_under = false -> ~ In c u.
Proof.
  intros [_ H] A B C Hin. rewrite Forall_forall in H. destruct (H _ Hin) as [X|[X|X]]; [congruence|congruence|].
  subst. now rewrite ceqb_refl in C.
Qed.
Lemma tag_after u : tag_name u -> ~ In c_lt (c_slash :: u ++ [c_gt]).
Proof.
  intros H [X|X]; [discriminate|]. apply in_app_or in X. destruct X as [X|[X|[]]]; [|discriminate].
  revert X. now apply tag_name_no.
Qed.
Lemma end_tag_shape u : end_tag u = c_lt :: c_slash :: u ++ [c_gt].
Proof. reflexivity. Qed.
Lemma tag_loop u : forall i rest, tag_name u \/ u = [] -> 0 <= i -> (i + zlength u <= MAX_STRING) ->
  read_tag_loop i (u ++ c_gt :: rest) = Ok (u, rest).
Proof.
  induction u as [|c u IH]; intros i rest H Hi Hl; [reflexivity|]. cbn [app read_tag_loop].
  destruct H as [[_ H]|H]; [|discriminate]. apply Forall_cons_iff in H. destruct H as [H1 H].
  assert (G : ceqb c c_gt = false). { destruct (ceqb c c_gt) eqn:E; [|reflexivity]. apply ceqb_eq in E. subst. destruct H1 as [X|[X|X]]; discriminate. }
  rewrite G. assert (T : tag_char i c = true).
  { unfold tag_char. destruct H1 as [->|[->| ->]]; rewrite ?orb_true_r; try reflexivity. }
  rewrite T. unfold zlength in Hl. cbn [List.length] in Hl. destruct (Z.ltb_spec MAX_STRING (i + 1)) as [X|X]; [lia|].
  rewrite IH; [reflexivity| |lia|unfold zlength; lia]. destruct u as [|x u]; [now right|left; split; [congruence|assumption]].
Qed.
Lemma tag_at u rest : tag_name u -> zlength u <= MAX_STRING -> read_tag_at (start_tag u ++ rest) = Ok (u, rest).
Proof.
  intros H Hl. unfold start_tag. change (lit "<") with [c_lt]. change (lit ">") with [c_gt]. rewrite <- !app_assoc. cbn [app read_tag_at].
  rewrite ceqb_refl. apply tag_loop; [now left|lia|lia].
Qed.
Lemma usable u : tag_name u -> usable_tag (Some u) = Ok (Some u).
Proof.
  intros [Hn H]. destruct u as [|c u]; [congruence|]. cbn. apply Forall_cons_iff in H. destruct H as [H _].
  destruct (ceqb c c_slash) eqn:E; [|reflexivity]. apply ceqb_eq in E. subst. destruct H as [X|[X|X]]; discriminate.
Qed.
Lemma opening_ok i u t : if_uri i = Some u -> opening i = Ok t -> t = start_tag u ++ [c_nl] /\ zlength u < 2045.
Proof.
  intros E H. unfold opening in H. rewrite E in H. cbn [pr] in H. unfold buf_store in H.
  destruct (Z.ltb_spec (zlength (c_lt :: u ++ [c_gt; c_nl])) MAX_STRING) as [X|]; [|discriminate]. apply Ok_inj in H. subst t.
  unfold zlength, MAX_STRING in *. cbn [List.length] in X. rewrite app_length in X. cbn [List.length] in X. split; [|lia].
  unfold start_tag. change (lit "<") with [c_lt]. change (lit ">") with [c_gt]. rewrite <- !app_assoc. reflexivity.
Qed.
Lemma closing_ok i u t : if_uri i = Some u -> closing i = Ok t -> t = end_tag u ++ [c_nl].
Proof.
  intros E H. unfold closing in H. rewrite E in H. cbn [pr] in H. unfold buf_store in H.
  destruct (Z.ltb_spec (zlength (c_lt :: c_slash :: u ++ [c_gt; c_nl])) MAX_STRING) as [X|]; [|discriminate]. apply Ok_inj in H. subst t.
  rewrite end_tag_shape. cbn [app]. rewrite <- app_assoc. reflexivity.
Qed.
Lemma sprint_one_eq (cfg : config) i d : generic_sprint_one (Generic (Some i) (Some d)) =
  (o <- data_sprint (if_kind i) d ;;
   match o with
   | None => Ok []
   | Some content => a <- opening i ;; b <- closing i ;; Ok (a ++ content ++ b)
   end).
Proof. reflexivity. Qed.
(** One printed extension. *)
Definition generic_text (u content : str) : str := start_tag u ++ [c_nl] ++ content ++ end_tag u ++ [c_nl].
Lemma sprint_one_shape (cfg : config) u k d t : generic_sprint_one (Generic (Some (Iface (Some u) k)) (Some d)) = Ok t ->
  (data_sprint k d = Ok None /\ t = []) \/
  exists content, data_sprint k d = Ok (Some content) /\ t = generic_text u content /\ zlength u < 2045.
Proof.
  intros H. rewrite sprint_one_eq in H. cbn [if_kind] in H. inv_bind H. destruct v as [content|]; [|left; apply Ok_inj in H; subst; auto].
  right. exists content. split; [assumption|]. inv_bind H. inv_bind H. apply Ok_inj in H. subst t.
  destruct (opening_ok (Iface (Some u) k) u _ eq_refl E0) as [-> X]. rewrite (closing_ok (Iface (Some u) k) u _ eq_refl E1). split; [|assumption].
  unfold generic_text. rewrite <- !app_assoc. reflexivity.
Qed.

(** ** Payloads *)
Lemma roundtrip_read {A} printed (read : str -> res (A * str)) x text before :
  roundtrip printed read x -> printed = Ok (Some text) -> blank_text before ->
  exists gap, read (before ++ text) = Ok (x, gap).
Proof.
  intros (t & E & H) E' Hb. rewrite E in E'. apply Ok_inj in E'. apply Some_eq in E'. subst t.
  destruct (H before [] Hb) as (gap & _ & X). rewrite app_nil_r in X. eauto.
Qed.
Lemma nl_blank before : before = [] \/ before = [c_nl] -> blank_text before.
Proof. intros [->| ->]; repeat constructor. Qed.
Definition read_back (before : str) (d : edata) : edata :=
  match d with DComment (Some c) => DComment (Some (before ++ c)) | _ => reread d end.

Section P.
Variable cfg : config.
Variable env : option str.
Variable p : Z.
Hypothesis Hcfg : config_ok cfg.
Hypothesis Hsup : supported cfg p.
Hypothesis Hp : osl_util_get_precision env = p.

Definition payload_reads (k : kind) (d : edata) : Prop :=
  forall text f before, data_sprint k d = Ok (Some text) ->
    (forall s : str, (Nat.min (List.length s) (List.length text) <= f s)%nat) -> before = [] \/ before = [c_nl] ->
    data_sread env (fun s => sread_one_fuel env (f s) default_registry s) k (Some (before ++ text)) = Ok (Some (read_back before d)).
Definition generic_reads (registry : list interf) (g : generic) : Prop :=
  forall t fuel b rest, generic_sprint_one g = Ok t -> t <> [] -> (List.length t <= fuel)%nat -> blank_text b ->
    sread_one_fuel env fuel registry (b ++ t ++ rest) = Ok (Some (reread_generic g), c_nl :: rest).
Definition symbols_read (l : list symbol) : Prop :=
  forall n text f before, symbols_text symbol_sprint n l = Ok text ->
    (forall s : str, (Nat.min (List.length s) (List.length text) <= f s)%nat) -> blank_text before ->
    exists gap, symbols_sread_loop (fun s => sread_one_fuel env (f s) default_registry s) (List.length l) (before ++ text)
                = Ok (map reread_symbol l, gap).

Lemma one_field (f : str -> nat) (text : str) g (t b rest : str) : (forall s : str, (Nat.min (List.length s) (List.length text) <= f s)%nat) ->
  generic_reads default_registry g -> generics_text generic_sprint_one [g] = Ok t -> t <> [] ->
  (List.length t <= List.length text)%nat -> blank_text b ->
  sread_one_fuel env (f (b ++ t ++ rest)) default_registry (b ++ t ++ rest) = Ok (Some (reread_generic g), c_nl :: rest).
Proof.
  intros Hf Hg Ht Hne Hl Hb. cbn [generics_text] in Ht. inv_bind Ht. apply Ok_inj in Ht. rewrite !app_nil_r in Ht. subst v.
  apply Hg; try assumption. specialize (Hf (b ++ t ++ rest)). rewrite !app_length in Hf. lia.
Qed.

Lemma never_none k d : payload_ok cfg p k d -> data_sprint k d <> Ok None.
Proof.
  intros H E. destruct H; cbn [data_sprint] in E; try (inv_bind E; discriminate); try discriminate.
  - unfold osl_extbody_sprint in E; inv_bind E. inv_bind E. discriminate.
  - unfold osl_annotation_sprint in E; inv_bind E. inv_bind E. discriminate.
Qed.
Lemma sprint_one_ok registry g t : generic_ok cfg p registry g -> generic_sprint_one g = Ok t ->
  exists u k d content, g = Generic (Some (Iface (Some u) k)) (Some d) /\ tag_name u /\
    osl_interface_lookup registry u = Some (Iface (Some u) k) /\ payload_ok cfg p k d /\
    data_sprint k d = Ok (Some content) /\ ~ occurs (end_tag u) content /\ t = generic_text u content /\ zlength u < 2045.
Proof.
  intros H Ht. destruct H as [registry u k d Hu Hl Hd Ho]. apply sprint_one_shape in Ht. destruct Ht as [[E _]|(content & E & -> & L)].
  - exfalso. revert E. now apply never_none.
  - exists u, k, d, content. repeat (split; [assumption || reflexivity|]). split; [auto|]. split; [reflexivity|assumption].
Qed.
Lemma payload_reads_ok k d : payload_ok cfg p k d -> (forall l, d <> DSymbols l) -> payload_reads k d.
Proof.
  intros H Hs text f before E Hf Hb. pose proof (nl_blank _ Hb) as B.
  assert (Lb : (List.length before <= 1)%nat) by (destruct Hb; subst; cbn; lia).
  destruct H; cbn [data_sprint data_sread read_back reread] in *; try congruence.
  - inv_bind E. apply Ok_inj in E. apply Some_eq in E. subst v.
    destruct (C28_string_roundtrip l [] H (plain_of_words _ H0)) as (t & E1 & E2). pose proof (eq_trans (eq_sym E0) E1) as X. apply Ok_inj in X. subst t.
    rewrite rd_strings_blank by assumption. rewrite app_nil_r in E2. rewrite E2. reflexivity.
  - destruct (C34_body_roundtrip b H) as (R & _). destruct (roundtrip_read _ _ _ _ _ R E B) as (g & ->). reflexivity.
  - inv_bind E. apply Ok_inj in E. apply Some_eq in E. subst v. unfold osl_relation_sread. rewrite Hp.
    rewrite rd_rel_blank by assumption. unfold osl_relation_sprint in E0.
    destruct (C21_single_part_roundtrip cfg p t r None text []) as (b & _ & X); try assumption; [exact I|].
    rewrite app_nil_r in X. rewrite X. reflexivity.
  - unfold osl_comment_sprint in E. cbn [pr] in E. rewrite store_ok in E by lia. cbn [bind] in E. apply Ok_inj in E. apply Some_eq in E. subst text.
    unfold osl_comment_sread. destruct (Z.ltb_spec MAX_STRING (zlength (before ++ c))) as [X|_];
      [unfold zlength, MAX_STRING in X; rewrite app_length in X; lia|reflexivity].
  - reflexivity.
  - destruct (C33_scatinfos_roundtrip i H H0) as (R & _). destruct (roundtrip_read _ _ _ _ _ R E B) as (g & ->). reflexivity.
  - destruct (C33_scatnames_roundtrip l H H0) as (t & E1 & R & _). pose proof (eq_trans (eq_sym E) E1) as X. apply Ok_inj in X. apply Some_eq in X. subst t.
    specialize (R before [] B). rewrite app_nil_r in R. rewrite R. reflexivity.
  - pose proof (C32_roundtrip a H) as R. destruct (roundtrip_read _ _ _ _ _ R E B) as (g & ->). reflexivity.
  - destruct (C33_coordinates_roundtrip c H) as (R & _). destruct (roundtrip_read _ _ _ _ _ R E B) as (g & ->). reflexivity.
  - destruct (C33_clay_roundtrip before c) as (E1 & R & _); [destruct Hb; subst; repeat constructor|assumption|rewrite app_length; lia|].
    pose proof (eq_trans (eq_sym E) E1) as X. apply Ok_inj in X. apply Some_eq in X. subst text. rewrite R. reflexivity.
  - pose proof (C33_dependence_roundtrip cfg p l text Hcfg Hsup H0 H1 E) as R.
    destruct (roundtrip_read _ _ _ _ _ R E B) as (g & X). unfold osl_dependence_sread. rewrite Hp. rewrite X. destruct l; [congruence|reflexivity].
  - destruct (C33_extbody_roundtrip e H) as (R & _). destruct (roundtrip_read _ _ _ _ _ R E B) as (g & ->). reflexivity.
  - pose proof (C33_loop_roundtrip l H0 H1) as R. destruct (roundtrip_read _ _ _ _ _ R E B) as (g & ->). destruct l; [congruence|reflexivity].
  - pose proof (C33_pluto_unroll_roundtrip l text H0 E) as R. destruct (roundtrip_read _ _ _ _ _ R E B) as (g & ->). destruct l; [congruence|reflexivity].
  - destruct (C33_region_roundtrip l H0 H1) as (R & _). destruct (roundtrip_read _ _ _ _ _ R E B) as (g & ->). destruct l; [congruence|reflexivity].
  - destruct (C33_annotation_roundtrip a H) as (R & _). destruct (roundtrip_read _ _ _ _ _ R E B) as (g & ->). reflexivity.
Qed.

Lemma sread_one_step fuel registry u k d content b rest :
  tag_name u -> zlength u < 2045 -> osl_interface_lookup registry u = Some (Iface (Some u) k) ->
  data_sprint k d = Ok (Some content) -> ~ occurs (end_tag u) content -> payload_reads k d ->
  (List.length content <= fuel)%nat -> blank_text b ->
  sread_one_fuel env (S fuel) registry (b ++ generic_text u content ++ rest)
  = Ok (Some (reread_generic (Generic (Some (Iface (Some u) k)) (Some d))), c_nl :: rest).
Proof.
  intros Hu Lu Hl E Ho Hd Hf Hb. cbn [sread_one_fuel]. unfold osl_util_read_tag_s. rewrite sskip_blank by assumption.
  assert (X : generic_text u content ++ rest = start_tag u ++ c_nl :: content ++ end_tag u ++ c_nl :: rest)
    by (unfold generic_text; rewrite <- !app_assoc; reflexivity).
  rewrite X. rewrite sskip_meaningful by (split; [reflexivity|discriminate]). cbn [bind].
  pose proof (tag_at u (c_nl :: content ++ end_tag u ++ c_nl :: rest) Hu) as T. unfold MAX_STRING in T. specialize (T ltac:(lia)).
  unfold start_tag in *. change (lit "<") with [c_lt] in *. cbn [app] in T |- *. rewrite T. cbn [bind].
  rewrite usable by assumption. cbn [bind].
  assert (F : first_occurrence (end_tag u) ((c_nl :: content) ++ end_tag u ++ c_nl :: rest) (c_nl :: content) (c_nl :: rest)).
  { rewrite end_tag_shape. apply first_flag; [now apply tag_after|]. change (c_nl :: content) with ([c_nl] ++ content).
    apply occurs_free; [|assumption]. intros [Y|[]]; discriminate. }
  cbn [app] in F. rewrite (proj2 (C26_uptotag _ u _ _) F). unfold make_generic. rewrite Hl. cbn [if_kind].
  pose proof (Hd content (fun _ => fuel) [c_nl] E ltac:(intros; lia) (or_intror eq_refl)) as R. cbn [app] in R.
  match goal with |- context [data_sread ?a ?b ?c ?e] => replace (data_sread a b c e) with (Ok (Some (read_back [c_nl] d))) by (symmetry; exact R) end.
  cbn [bind].
  f_equal. f_equal. f_equal. f_equal. cbn [reread_generic]. f_equal. f_equal. unfold read_back. destruct d; try reflexivity. destruct c; reflexivity.
Qed.
Lemma blank_num n w : no_nl w -> blank_text (lit "# " ++ print_Z n ++ ln w).
Proof.
  intros H. unfold ln. rewrite app_assoc. rewrite app_assoc. apply (blank_ln (c_sp :: print_Z n ++ w)).
  intros [X|X]; [discriminate|]. apply in_app_or in X. destruct X as [X|X]; [now apply print_Z_no_nl in X|now apply H].
Qed.
Lemma blank_title n w : no_nl w -> blank_text (symbol_title n w).
Proof. intros H. apply bt_space; [reflexivity|]. now apply blank_num. Qed.
Lemma one_blank g s b : blank_text b -> forall n, sread_one_fuel env n g (b ++ s) = sread_one_fuel env n g s.
Proof. intros H [|n]; [reflexivity|]. cbn [sread_one_fuel]. unfold osl_util_read_tag_s. now rewrite sskip_blank. Qed.
Lemma symbol_type_ok t : In t [-1; 1; 2; 3; 4] -> symbol_type_of (symbol_type_string t) = t /\ word_string 10 (symbol_type_string t).
Proof.
  intros [<-|[<-|[<-|[<-|[<-|[]]]]]]; (split; [reflexivity|]); wlit.
Qed.

Lemma field_ok g t : generic_ok cfg p default_registry g -> generics_text generic_sprint_one [g] = Ok t -> t <> [].
Proof.
  intros Hg Ht. cbn [generics_text] in Ht. inv_bind Ht. apply Ok_inj in Ht. rewrite !app_nil_r in Ht. subst v.
  destruct (sprint_one_ok _ _ _ Hg E) as (u & k & d & content & _ & _ & _ & _ & _ & _ & -> & _). discriminate.
Qed.
Lemma symbol_sprint_eq n ty gen dims a b c e : symbol_sprint n (Symbol ty gen dims a b c e) =
  (ta <- generics_text generic_sprint_one a ;;
   tb <- generics_text generic_sprint_one b ;;
   tc <- generics_text generic_sprint_one c ;;
   te <- generics_text generic_sprint_one e ;;
   Ok (ln (lit "# ===========================================")
          ++ lit "# " ++ print_Z n ++ lit " Data for symbol number " ++ print_Z n ++ ln [c_sp]
          ++ lit "# " ++ print_Z n ++ ln (lit ".1 Symbol type") ++ ln (symbol_type_string ty)
          ++ symbol_title n (lit ".2 Generated Boolean") ++ lnZ gen
          ++ symbol_title n (lit ".3 Number of dimensions") ++ lnZ dims
          ++ symbol_title n (lit ".4 Identifier") ++ ta
          ++ symbol_title n (lit ".5 Datatype") ++ tb
          ++ symbol_title n (lit ".6 Scope") ++ tc
          ++ symbol_title n (lit ".7 Extent") ++ te)).
Proof. reflexivity. Qed.
Lemma symbols_sprint_eq l : data_sprint KSymbols (DSymbols l) =
  (t <- symbols_text symbol_sprint 1 l ;; Ok (Some (ln (lit "# Number of symbols") ++ lnZ (zlength l) ++ t))).
Proof. reflexivity. Qed.
Lemma symbol_shape n ty gen dims a b c e text : symbol_sprint n (Symbol ty gen dims a b c e) = Ok text ->
  exists ta tb tc te b1 b2 b3 b4 b5 b6 b7,
    generics_text generic_sprint_one a = Ok ta /\ generics_text generic_sprint_one b = Ok tb /\
    generics_text generic_sprint_one c = Ok tc /\ generics_text generic_sprint_one e = Ok te /\
    text = b1 ++ ln (symbol_type_string ty) ++ b2 ++ lnZ gen ++ b3 ++ lnZ dims ++ b4 ++ ta ++ b5 ++ tb ++ b6 ++ tc ++ b7 ++ te /\
    blank_text b1 /\ blank_text b2 /\ blank_text b3 /\ blank_text b4 /\ blank_text b5 /\ blank_text b6 /\ blank_text b7.
Proof.
  intros H. rewrite symbol_sprint_eq in H. inv_bind H. inv_bind H. inv_bind H. inv_bind H. apply Ok_inj in H. subst text.
  exists v, v0, v1, v2, (ln (lit "# ===========================================") ++
        (lit "# " ++ print_Z n ++ ln (lit " Data for symbol number " ++ print_Z n ++ [c_sp])) ++
        (lit "# " ++ print_Z n ++ ln (lit ".1 Symbol type"))),
    (symbol_title n (lit ".2 Generated Boolean")), (symbol_title n (lit ".3 Number of dimensions")),
    (symbol_title n (lit ".4 Identifier")), (symbol_title n (lit ".5 Datatype")), (symbol_title n (lit ".6 Scope")),
    (symbol_title n (lit ".7 Extent")).
  repeat (split; [first [assumption | reflexivity | idtac]|]).
  - unfold ln. rewrite <- !app_assoc. reflexivity.
  - apply blank_text_app; [blk|]. apply blank_text_app; apply blank_num.
    + intros X. apply in_app_or in X. destruct X as [X|X]; [revert X; apply no_nlb_ok; reflexivity|].
      apply in_app_or in X. destruct X as [X|[X|[]]]; [now apply print_Z_no_nl in X|discriminate].
    + apply no_nlb_ok. reflexivity.
  - apply blank_title, no_nlb_ok. reflexivity.
  - apply blank_title, no_nlb_ok. reflexivity.
  - apply blank_title, no_nlb_ok. reflexivity.
  - apply blank_title, no_nlb_ok. reflexivity.
  - apply blank_title, no_nlb_ok. reflexivity.
  - apply blank_title, no_nlb_ok. reflexivity.
Qed.
Lemma blank_c b : blank_text b -> blank_text (c_nl :: b).
Proof. intros. now apply bt_space. Qed.
Lemma symbols_step (f : str -> nat) type gen dims a b c e n text before :
  In type [-1; 1; 2; 3; 4] -> c_int gen -> c_int dims ->
  generic_ok cfg p default_registry a -> generic_ok cfg p default_registry b ->
  generic_ok cfg p default_registry c -> generic_ok cfg p default_registry e ->
  generic_reads default_registry a -> generic_reads default_registry b ->
  generic_reads default_registry c -> generic_reads default_registry e ->
  symbol_sprint n (Symbol type gen dims [a] [b] [c] [e]) = Ok text ->
  (forall s : str, (Nat.min (List.length s) (List.length text) <= f s)%nat) -> blank_text before ->
  forall rest, symbol_sread_one (fun s => sread_one_fuel env (f s) default_registry s) (before ++ text ++ rest)
    = Ok (reread_symbol (Symbol type gen dims [a] [b] [c] [e]), c_nl :: rest).
Proof.
  intros Hty Hgen Hdims Ga Gb Gc Ge Ra Rb Rc Re E Hf Hb rest.
  apply symbol_shape in E. destruct E as (ta & tb & tc & te & b1 & b2 & b3 & b4 & b5 & b6 & b7 & Ea & Eb & Ec & Ee & -> & B1 & B2 & B3 & B4 & B5 & B6 & B7).
  pose proof (field_ok _ _ Ga Ea). pose proof (field_ok _ _ Gb Eb). pose proof (field_ok _ _ Gc Ec). pose proof (field_ok _ _ Ge Ee).
  destruct (symbol_type_ok _ Hty) as [T1 T2].
  rewrite !app_length in Hf. unfold symbol_sread_one. rewrite <- !app_assoc.
  rewrite rd_str_blank by assumption. rewrite rd_str_blank by assumption. rewrite (rd_ln_str 10) by (assumption || lia). cbn [bind].
  rewrite rd_int_c by reflexivity. rewrite rd_int_blank by assumption. rewrite rd_lnZ by assumption. cbn [bind].
  rewrite rd_int_c by reflexivity. rewrite rd_int_blank by assumption. rewrite rd_lnZ by assumption. cbn [bind].
  pose proof (fun g t b rest => one_field f (b1 ++ ln (symbol_type_string type) ++ b2 ++ lnZ gen ++ b3 ++ lnZ dims ++ b4 ++ ta ++ b5 ++ tb ++ b6 ++ tc ++ b7 ++ te) g t b rest) as R.
  assert (F : forall s : str, (Nat.min (List.length s) (List.length (b1 ++ ln (symbol_type_string type) ++ b2 ++ lnZ gen ++ b3 ++ lnZ dims ++ b4 ++ ta ++ b5 ++ tb ++ b6 ++ tc ++ b7 ++ te)) <= f s)%nat)
    by (rewrite !app_length; exact Hf).
  pose proof (R a ta (c_nl :: b4) (b5 ++ tb ++ b6 ++ tc ++ b7 ++ te ++ rest) F Ra Ea ltac:(assumption) ltac:(rewrite !app_length; lia) ltac:(now apply blank_c)) as X1.
  pose proof (R b tb (c_nl :: b5) (b6 ++ tc ++ b7 ++ te ++ rest) F Rb Eb ltac:(assumption) ltac:(rewrite !app_length; lia) ltac:(now apply blank_c)) as X2.
  pose proof (R c tc (c_nl :: b6) (b7 ++ te ++ rest) F Rc Ec ltac:(assumption) ltac:(rewrite !app_length; lia) ltac:(now apply blank_c)) as X3.
  pose proof (R e te (c_nl :: b7) rest F Re Ee ltac:(assumption) ltac:(rewrite !app_length; lia) ltac:(now apply blank_c)) as X4.
  cbn [app] in X1, X2, X3, X4. rewrite X1. cbn [bind]. rewrite X2. cbn [bind]. rewrite X3. cbn [bind]. rewrite X4. cbn [bind].
  rewrite T1. reflexivity.
Qed.
Lemma text_length_mono (f : str -> nat) (t1 t2 : str) : (forall s : str, (Nat.min (List.length s) (List.length (t1 ++ t2)) <= f s)%nat) ->
  (forall s : str, (Nat.min (List.length s) (List.length t1) <= f s)%nat) /\ (forall s : str, (Nat.min (List.length s) (List.length t2) <= f s)%nat).
Proof. intros H. split; intros s; specialize (H s); rewrite app_length in H; lia. Qed.

Lemma all_reads : (forall k d, payload_ok cfg p k d -> payload_reads k d) /\ (forall l, symbols_ok cfg p l -> symbols_read l) /\
  (forall r g, generic_ok cfg p r g -> generic_ok cfg p r g /\ generic_reads r g).
Proof.
  apply save_ind; intros; try (apply payload_reads_ok; [econstructor; eassumption|discriminate]).
  - (* symbols *) intros text f before E Hf Hb. pose proof (H3 text E) as L. rewrite symbols_sprint_eq in E. inv_bind E. apply Ok_inj in E. apply Some_eq in E.
    pose proof (nl_blank _ Hb) as B. assert (Lb : (List.length before <= 1)%nat) by (destruct Hb; subst; cbn; lia).
    cbn [data_sread read_back reread]. unfold symbols_sread_with.
    destruct (Z.ltb_spec MAX_STRING (zlength (before ++ text))) as [X|_]; [unfold zlength, MAX_STRING in X; rewrite app_length in X; lia|].
    subst text. assert (C : c_int (zlength l)) by (unfold c_int; unfold count_ok in H0; unfold zlength; lia).
    rewrite rd_int_blank by assumption. rewrite rd_int_blank by blk. rewrite rd_lnZ by assumption. cbn [bind].
    unfold count_ok in H0. assert (zlength l <? 0 = false) as -> by (unfold zlength; lia).
    replace (Z.to_nat (zlength l)) with (List.length l) by (unfold zlength; lia).
    destruct (H2 1 v f [c_nl]) as (gap & X); try assumption.
    + intros s. specialize (Hf s). rewrite !app_length in Hf. lia.
    + repeat constructor.
    + cbn [app] in X. rewrite X. cbn [bind]. destruct l; [congruence|reflexivity].
  - (* no symbol *) intros n text f before E Hf Hb. cbn [symbols_text] in E. apply Ok_inj in E. subst text. exists (before ++ []). reflexivity.
  - (* a symbol *) intros n text f before E Hf Hb.
    destruct H3 as [_ Ra], H5 as [_ Rb], H7 as [_ Rc], H9 as [_ Re]. cbn [symbols_text] in E. inv_bind E. inv_bind E. apply Ok_inj in E. subst text.
    destruct (text_length_mono _ _ _ Hf) as [Hf1 Hf2]. cbn [List.length symbols_sread_loop].
    rewrite (symbols_step f type gen dims a b c e n v before) by assumption. cbn [bind].
    destruct (H11 (n + 1) v0 f [c_nl]) as (gap & X); try assumption.
    + repeat constructor.
    + cbn [app] in X. rewrite X. cbn [bind map]. eexists. reflexivity.
  - (* an extension *) split; [constructor; assumption|]. intros t fuel bl rest Ht Hne Hf Hb.
    destruct (sprint_one_ok registry (Generic (Some (Iface (Some u) k)) (Some d)) t) as (u' & k' & d' & content & Eg & _ & _ & _ & Ed & Ho & -> & Lu);
      [constructor; assumption|assumption|]. injection Eg as <- <- <-.
    destruct fuel as [|fuel]; [destruct (start_tag u); cbn in Hf; lia|].
    apply sread_one_step; try assumption. unfold generic_text in Hf. rewrite !app_length in Hf. unfold start_tag in Hf. rewrite !app_length in Hf. cbn in Hf. lia.
Qed.
End P.
