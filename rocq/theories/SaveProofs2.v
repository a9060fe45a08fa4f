(** * SaveProofs2: reading back extensions, statements and scops from a file *)
From Coq Require Import ZifyBool ZifyNat.
From Verif Require Import Base IntModel VectorModel RelationModel UtilModel StringsModel RelTextModel
  Spec RelSpec TextSpec LoopLemmas TextInt UtilProofs UtilProofs2 PropUtil RelTextProofs RelTextProofs2 RelTextProofs3 RelTextProofs4
  PropStrings PropRelText ExtModel ExtSpec ExtProofs PropExt PropExt2 PropExt3 ScopModel SaveSpec SaveProofs.

(** ** Complete lines without meaning *)
Inductive blank_lines : str -> Prop :=
| bl_nil : blank_lines []
| bl_line l b : no_nl l -> (all_space l \/ exists a c, l = a ++ c_hash :: c /\ all_space a) -> blank_lines b ->
    blank_lines (l ++ c_nl :: b).
Lemma blank_lines_app a b : blank_lines a -> blank_lines b -> blank_lines (a ++ b).
Proof. induction 1; intros H2; [assumption|]. rewrite <- app_assoc. cbn [app]. constructor; auto. Qed.
Lemma bl_comment w : no_nl w -> blank_lines (ln (c_hash :: w)).
Proof.
  intros H. unfold ln. apply (bl_line (c_hash :: w) []); [|right; exists [], w; split; [reflexivity|constructor]|constructor].
  intros [X|X]; [discriminate|auto].
Qed.
Lemma bl_nl : blank_lines [c_nl].
Proof. apply (bl_line [] []); [intros []|left; constructor|constructor]. Qed.
Lemma bl_lit s : (exists w, lit s = c_hash :: w /\ no_nlb w = true) -> blank_lines (ln (lit s)).
Proof. intros (w & -> & H). apply bl_comment. now apply no_nlb_ok. Qed.
Definition nls (b : str) : Prop := Forall (fun c => c = c_nl) b.
Lemma nls_lines b : nls b -> blank_lines b.
Proof. induction 1 as [|c b -> H IH]; [constructor|]. apply (bl_line [] b); [intros []|left; constructor|assumption]. Qed.
Lemma nls_short b : nls b -> short_lines b.
Proof.
  intros H x y z E Hy. destruct y as [|c y]; [cbn; lia|]. exfalso. apply Hy. left. subst b. unfold nls in H. rewrite !Forall_app in H.
  destruct H as (_ & H & _). now apply Forall_cons_iff in H.
Qed.
Lemma nls_app a b : nls a -> nls b -> nls (a ++ b).
Proof. intros. apply Forall_app. split; assumption. Qed.
Lemma nls_no_lt b : nls b -> ~ In c_lt b.
Proof. intros H X. unfold nls in H. rewrite Forall_forall in H. discriminate (H _ X). Qed.

Lemma skip_blank_lines b s e o f' : blank_lines b -> short_lines b ->
  osl_util_skip_blank_and_comments (File s e) = Ok (o, f') ->
  osl_util_skip_blank_and_comments (File (b ++ s) e) = Ok (o, f').
Proof.
  induction 1 as [|l b Hl Hw H IH]; intros Hs E; [assumption|]. rewrite <- app_assoc. cbn [app].
  apply skip_file_step; [assumption| |assumption|].
  - apply (Hs [] l (c_nl :: b)); [reflexivity|assumption].
  - apply IH; [|assumption]. apply (short_lines_tail (l ++ [c_nl])). rewrite <- app_assoc. exact Hs.
Qed.
Lemma file_int b v rest e : blank_lines b -> short_lines b -> c_int v ->
  osl_util_read_int_f (File (b ++ lnZ v ++ rest) e) = Ok (v, File rest e).
Proof.
  intros Hb Hs Hv. unfold osl_util_read_int_f. destruct (print_Z_visible v) as (Hn & c & t & E & H1 & H2 & _).
  pose proof (int_length v Hv). unfold lnZ. rewrite <- (app_assoc (print_Z v)). cbn [app].
  rewrite (skip_blank_lines b _ _ (Some (print_Z v ++ [c_nl])) (File rest e)); [|assumption|assumption|].
  - cbn [bind]. pose proof (rd_int v c_nl [] Hv eq_refl) as R. unfold osl_util_read_int_s in R.
    rewrite sskip_meaningful in R by (rewrite E; cbn; auto). cbn [bind] in R.
    rewrite span_exact in R; [|apply print_Z_tok|reflexivity]. rewrite store_ok in R by lia. cbn [bind] in R.
    assert (X : scan_int (print_Z v ++ [c_nl]) = Ok v); [|now rewrite X].
    destruct (scan_int (print_Z v)) eqn:Ev; cbn [bind] in R; try discriminate. apply Ok_inj in R. injection R as ->.
    rewrite <- Ev. pose proof (print_Z_tok v) as T. rewrite E in T |- *. apply (scan_int_token c t [c_nl]); [exact T|reflexivity].
  - apply skip_file_line; [apply print_Z_no_nl|lia|eauto].
Qed.
Lemma file_strings b s e x : blank_lines b -> short_lines b -> osl_strings_read (File s e) = Ok x ->
  osl_strings_read (File (b ++ s) e) = Ok x.
Proof.
  intros Hb Hs H. unfold osl_strings_read in *. destruct (osl_util_skip_blank_and_comments (File s e)) as [[o f']| | |] eqn:E; try discriminate.
  rewrite (skip_blank_lines b s e o f') by assumption. exact H.
Qed.
Lemma file_relation (cfg : config) b s e p x : blank_lines b -> short_lines b -> osl_relation_pread (File s e) p = Ok x ->
  osl_relation_pread (File (b ++ s) e) p = Ok x.
Proof.
  intros Hb Hs H. unfold osl_relation_pread, osl_relation_read_type_f in *.
  destruct (osl_strings_read (File s e)) as [x1| | |] eqn:E; try discriminate.
  rewrite (file_strings b s e x1) by assumption. exact H.
Qed.

(** ** Extensions *)
Lemma uri_reread g : g_uri (reread_generic g) = g_uri g.
Proof. destruct g as [i o]. reflexivity. Qed.
Lemma uri_reread_file g : g_uri (reread_file g) = g_uri g.
Proof. destruct g as [i [d|]]; [|reflexivity]. destruct d; try reflexivity. Qed.
Lemma lookup_none l u : ~ In (Some u) (map g_uri l) -> osl_generic_lookup l u = None.
Proof.
  induction l as [|g l IH]; intros H; [reflexivity|]. cbn [osl_generic_lookup]. unfold has_uri. cbn [map] in H.
  destruct (g_uri g) as [v|]; [|apply IH; intros X; apply H; now right].
  destruct (str_eqb v u) eqn:E; [apply str_eqb_eq in E; subst; exfalso; apply H; now left|apply IH; intros X; apply H; now right].
Qed.
Section P.
Variable cfg : config.
Variable env : option str.
Variable p : Z.
Hypothesis Hcfg : config_ok cfg.
Hypothesis Hsup : supported cfg p.
Hypothesis Hp : osl_util_get_precision env = p.

Lemma read_one_step registry g t b rest : generic_ok cfg p registry g -> generic_sprint_one g = Ok t -> nls b ->
  osl_generic_read_one env (File (b ++ t ++ rest) false) registry = Ok (Some (reread_file g), File (c_nl :: rest) false).
Proof.
  intros Hg Ht Hb. destruct (sprint_one_ok _ _ _ _ _ Hg Ht) as (u & k & d & content & -> & Hu & Hl & Hd & E & Ho & -> & Lu).
  unfold osl_generic_read_one, osl_util_read_tag_f. unfold generic_text.
  assert (X : (start_tag u ++ [c_nl] ++ content ++ end_tag u ++ [c_nl]) ++ rest
              = start_tag u ++ c_nl :: content ++ end_tag u ++ c_nl :: rest) by (rewrite <- !app_assoc; reflexivity).
  rewrite X. rewrite (skip_blank_lines b _ _ (Some (start_tag u ++ [c_nl])) (File (content ++ end_tag u ++ c_nl :: rest) false));
    [|now apply nls_lines|now apply nls_short|].
  - cbn [bind feof]. rewrite tag_at by (assumption || (unfold MAX_STRING; lia)).
    assert (Y : start_tag u ++ [c_nl] <> []) by discriminate. destruct (start_tag u ++ [c_nl]) as [|x y]; [congruence|].
    cbn [bind]. rewrite usable by assumption. cbn [bind]. unfold osl_util_read_uptoendtag_f.
    assert (F : first_occurrence (end_tag u) (content ++ end_tag u ++ c_nl :: rest) content (c_nl :: rest)).
    { rewrite end_tag_shape. apply first_flag; [now apply tag_after|assumption]. }
    destruct (C26_uptoflag_file (content ++ end_tag u ++ c_nl :: rest) (end_tag u)) as [G _].
    { discriminate. }
    { rewrite end_tag_shape. intros [Z|[Z|Z]]; try discriminate. apply in_app_or in Z. destruct Z as [Z|[Z|[]]]; [|discriminate].
      revert Z. apply tag_name_no; [assumption|reflexivity|reflexivity|reflexivity]. }
    change (endtag_of u) with (end_tag u). rewrite (G _ _ F). cbn [bind]. unfold make_generic. rewrite Hl. cbn [if_kind].
    pose proof (proj1 (all_reads cfg env p Hcfg Hsup Hp) k d Hd content (fun s : str => S (List.length s)) [] E ltac:(intros; cbn beta; lia) (or_introl eq_refl)) as R.
    cbn [app] in R.
    match goal with |- context [data_sread ?a ?b ?c ?e] => replace (data_sread a b c e) with (Ok (Some (read_back [] d))) by (symmetry; exact R) end.
    cbn [bind]. f_equal. f_equal. f_equal. destruct d; try reflexivity. destruct c; reflexivity.
  - apply skip_file_line.
    + unfold start_tag. intros Z. apply in_app_or in Z. destruct Z as [[Z|[]]|Z]; [discriminate|]. apply in_app_or in Z.
      destruct Z as [Z|[Z|[]]]; [|discriminate]. revert Z. apply tag_name_no; [assumption|reflexivity|reflexivity|reflexivity].
    + unfold start_tag. rewrite !app_length. cbn. unfold zlength in Lu. lia.
    + exists c_lt. unfold start_tag. eexists. split; [reflexivity|]. split; [reflexivity|discriminate].
Qed.
Lemma add_fresh acc g u : g_uri g = Some u -> ~ In (Some u) (map g_uri acc) -> osl_generic_add acc (Some g) = Ok (acc ++ [g]).
Proof. intros E H. unfold osl_generic_add. rewrite E. now rewrite lookup_none. Qed.
Lemma generic_has_uri registry g : generic_ok cfg p registry g -> exists u, g_uri g = Some u.
Proof. intros H. destruct H. eexists. reflexivity. Qed.

Lemma read_extensions_ok registry l : forall acc b text rest, Forall (generic_ok cfg p registry) l ->
  NoDup (map g_uri acc ++ map g_uri l) -> osl_generic_sprint l = Ok text -> nls b ->
  exists b', nls b' /\ read_extensions env (List.length l) registry acc (File (b ++ text ++ rest) false)
    = Ok (acc ++ map reread_file l, File (b' ++ rest) false).
Proof.
  unfold osl_generic_sprint. induction l as [|g l IH]; intros acc b text rest Hl Hd Ht Hb; cbn [generics_text] in Ht.
  - apply Ok_inj in Ht. subst text. exists b. split; [assumption|]. cbn. now rewrite app_nil_r.
  - inv_bind Ht. inv_bind Ht. apply Ok_inj in Ht. apply Forall_cons_iff in Hl. destruct Hl as [Hg Hl].
    cbn [List.length read_extensions map]. subst text. rewrite <- !app_assoc.
    rewrite (read_one_step registry g v b) by assumption. cbn [bind].
    destruct (generic_has_uri _ _ Hg) as [u Eu]. cbn [map] in Hd.
    rewrite (add_fresh acc (reread_file g) u).
    + cbn [bind]. destruct (IH (acc ++ [reread_file g]) (c_nl :: match l with [] => [] | _ => [c_nl] end) v0 rest) as (b' & Hb' & X); try assumption.
      * rewrite map_app. cbn [map]. rewrite uri_reread_file, <- app_assoc. exact Hd.
      * constructor; [reflexivity|]. destruct l; repeat constructor.
      * exists b'. split; [assumption|]. cbn [app] in X. rewrite <- !app_assoc in X. cbn [app] in X. exact X.
    + now rewrite uri_reread_file.
    + intros X. apply NoDup_remove_2 in Hd. apply Hd. rewrite Eu. apply in_or_app. now left.
Qed.
Lemma sread_loop_blank registry fuel acc b : nls b -> (List.length b < fuel)%nat -> sread_loop env fuel registry acc b = Ok (acc, []).
Proof.
  intros Hb Hf. destruct fuel as [|fuel]; [lia|]. cbn [sread_loop]. destruct b as [|c b]; [reflexivity|].
  unfold osl_generic_sread_one. cbn [sread_one_fuel]. unfold osl_util_read_tag_s.
  assert (B : blank_text (c :: b)). { clear -Hb. induction Hb as [|x l -> H IH]; [constructor|]. apply bt_space; [reflexivity|assumption]. }
  replace (c :: b) with ((c :: b) ++ []) by now rewrite app_nil_r. rewrite sskip_blank by assumption. cbn.
  destruct fuel as [|fuel]; [cbn in Hf; lia|]. reflexivity.
Qed.
Lemma sread_ok registry l : forall fuel acc b text rest, Forall (generic_ok cfg p registry) l ->
  NoDup (map g_uri acc ++ map g_uri l) -> osl_generic_sprint l = Ok text -> blank_text b -> (l = [] -> nls b) -> nls rest ->
  (List.length (b ++ text ++ rest) < fuel)%nat ->
  sread_loop env fuel registry acc (b ++ text ++ rest) = Ok (acc ++ map reread_generic l, []).
Proof.
  unfold osl_generic_sprint. induction l as [|g l IH]; intros fuel acc b text rest Hl Hd Ht Hb Hb' Hr Hf; cbn [generics_text] in Ht.
  - apply Ok_inj in Ht. subst text. cbn [app map]. rewrite app_nil_r. apply sread_loop_blank; [|assumption]. apply nls_app; auto.
  - inv_bind Ht. inv_bind Ht. apply Ok_inj in Ht. apply Forall_cons_iff in Hl. destruct Hl as [Hg Hl].
    destruct (generic_has_uri _ _ Hg) as [u Eu]. destruct (sprint_one_ok _ _ _ _ _ Hg E) as (u0 & k & d & content & _ & _ & _ & _ & _ & _ & Ev & _).
    assert (Nv : v <> []) by (subst v; discriminate).
    destruct fuel as [|fuel]; [lia|]. cbn [sread_loop].
    pose proof (proj2 (proj2 (proj2 (all_reads cfg env p Hcfg Hsup Hp)) registry g Hg)) as R.
    subst text. rewrite <- !app_assoc in Hf |- *.
    specialize (R v (S (List.length (b ++ v ++ match l with [] => [] | _ => [c_nl] end ++ v0 ++ rest))) b (match l with [] => [] | _ => [c_nl] end ++ v0 ++ rest) E Nv).
    destruct (b ++ v ++ match l with [] => [] | _ => [c_nl] end ++ v0 ++ rest) as [|x y] eqn:Ex.
    { exfalso. apply (f_equal (@List.length _)) in Ex. rewrite !app_length in Ex. destruct v; [congruence|cbn in Ex; lia]. }
    unfold osl_generic_sread_one. rewrite R; [|rewrite <- Ex; rewrite !app_length; lia|assumption]. cbn [bind].
    rewrite (add_fresh acc (reread_generic g) u); [|now rewrite uri_reread|].
    + cbn [bind]. cbn [map].
      pose proof (IH fuel (acc ++ [reread_generic g]) (c_nl :: match l with [] => [] | _ => [c_nl] end) v0 rest Hl) as I.
      cbn [app] in I. rewrite <- !app_assoc in I. cbn [app] in I. apply I; try assumption.
      * rewrite map_app. cbn [map]. rewrite uri_reread, <- app_assoc. exact Hd.
      * apply bt_space; [reflexivity|]. destruct l; repeat constructor.
      * intros ->. repeat constructor.
      * apply (f_equal (@List.length _)) in Ex. rewrite !app_length in Ex. cbn [List.length] in Hf, Ex |- *. rewrite !app_length.
        subst v. unfold generic_text in Ex. rewrite !app_length in Ex. cbn [List.length] in Ex.
        assert (1 <= List.length (start_tag u0))%nat by (unfold start_tag; rewrite !app_length; cbn; lia). lia.
    + intros X. apply NoDup_remove_2 in Hd. apply Hd. rewrite Eu. apply in_or_app. now left.
Qed.
End P.
