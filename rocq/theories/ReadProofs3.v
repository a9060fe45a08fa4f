(** * ReadProofs3: extensions, statements and scops (C58) *)
From Coq Require Import Permutation.
From Verif Require Import Base IntModel Spec RelSpec LoopLemmas IntProofs TextSpec UtilModel UtilProofs PropUtil StringsModel
  RelationModel RelationProofs RelTextModel RelTextProofs ExtModel ScopModel ReadSpec ReadProofs ReadProofs2.

(** One step of a reader of a string: [s] is the text given to the whole reader. *)
Ltac rint := eapply safe_bind; [apply read_int_safe|]; let v := fresh "v" in let s' := fresh "s" in let Hv := fresh "Hv" in let H := fresh "L" in
  intros [v s'] [Hv H]; cbn [fst snd] in Hv, H.
Ltac rstr := eapply safe_bind; [apply read_string_safe|]; let v := fresh "v" in let s' := fresh "s" in let H := fresh "L" in
  intros [v s'] H; cbn [fst snd] in H.
Ltac rline := eapply safe_bind; [apply read_line_safe|]; let v := fresh "v" in let s' := fresh "s" in let H := fresh "L" in
  intros [v s'] H; cbn [fst snd] in H.
Ltac rests := repeat match goal with
  | H : less ?a ?b |- rest_of ?a _ => eapply rest_trans; [exact (less_rest _ _ H)|]
  | H : rest_of ?a ?b |- rest_of ?a ?c => (exact H) || (eapply rest_trans; [exact H|])
  | |- rest_of ?a ?a => apply rest_refl
  end.

Lemma read_ints_safe : forall n s, safe (fun x => rest_of (snd x) s) (read_ints n s).
Proof. induction n as [|n IH]; intros s; cbn [read_ints]; [apply rest_refl|]. rint. eapply safe_bind; [apply IH|]. intros [l r] H. cbn in *. rests. Qed.
Lemma body_safe s : safe (fun x => body_read (fst x) /\ rest_of (snd x) s) (osl_body_sread s).
Proof.
  unfold osl_body_sread. rint.
  eapply (safe_bind (fun x => match fst x with Some t => t <> None | None => True end /\ opt_rest (snd x) s0)).
  - destruct (0 <? v).
    + eapply safe_mono; [apply strings_safe|]. intros [o e] [H1 H2]. cbn [fst snd] in *. split; [|exact H2].
      destruct o as [t|]; [|exact I]. destruct H1 as (x & l & ->). discriminate.
    + split; [discriminate|apply rest_refl].
  - intros [it [c|]] [H1 H2]; [|exact I]. cbn [fst snd opt_rest] in *. rline. apply safe_ok. cbn [fst snd]. split; [|rests].
    split; [exact H1|]. now exists v0.
Qed.
Lemma read_pairs_safe : forall n s, safe (fun x => rest_of (snd x) s) (read_pairs n s).
Proof. induction n as [|n IH]; intros s; cbn [read_pairs]; [apply rest_refl|]. rint. rint. eapply safe_bind; [apply IH|]. intros [l r] H. cbn in *. rests. Qed.
Lemma extbody_safe s : safe (fun x => (match eb_body (fst x) with Some b => body_read b | None => False end) /\ rest_of (snd x) s) (osl_extbody_sread s).
Proof.
  unfold osl_extbody_sread. rint. destruct (v <? 0); [exact I|]. eapply safe_bind; [apply read_pairs_safe|]. intros [l r] H. cbn [snd] in H.
  eapply safe_bind; [apply body_safe|]. intros [b r2] [Hb H2]. apply safe_ok. cbn [fst snd eb_body] in *. split; [exact Hb|]. rests.
Qed.
Lemma read_arrays_safe : forall n s, safe (fun x => rest_of (snd x) s) (read_arrays n s).
Proof. induction n as [|n IH]; intros s; cbn [read_arrays]; [apply rest_refl|]. rint. rstr. eapply safe_bind; [apply IH|]. intros [l r] H. cbn in *. rests. Qed.
Lemma arrays_safe s : safe (fun x => rest_of (snd x) s) (osl_arrays_sread s).
Proof. unfold osl_arrays_sread. rint. destruct (v <? 0); [exact I|]. eapply safe_mono; [apply read_arrays_safe|]. intros [l r] H. cbn in *. rests. Qed.
Lemma scatnames_safe s : safe (fun x => (match fst x with Some n => exists y l, n = Some (Some (y :: l)) | None => True end) /\ opt_rest (snd x) s) (osl_scatnames_sread s).
Proof.
  unfold osl_scatnames_sread. eapply safe_bind; [apply strings_safe|]. intros [[n|] e] [H1 H2]; cbn [fst snd] in *; [|now split].
  split; [|exact H2]. destruct H1 as (y & l & ->). cbn. now exists y, l.
Qed.
Lemma coordinates_safe s : safe (fun x => some_text (co_name (fst x)) /\ rest_of (snd x) s) (osl_coordinates_sread s).
Proof. unfold osl_coordinates_sread. rline. do 5 rint. apply safe_ok. cbn [fst snd co_name]. split; [now exists v|]. rests. Qed.
Lemma loop_one_safe s : safe (fun x => some_text (lo_iter (fst x)) /\ rest_of (snd x) s) (loop_sread_one s).
Proof.
  unfold loop_sread_one. rstr. rint. destruct (v0 <? 0); [exact I|]. eapply safe_bind; [apply read_ints_safe|]. intros [ids r] H. cbn [snd] in H.
  rline. rint. eapply (safe_bind (fun x => rest_of (snd x) s3)).
  - destruct (user_directive v2); [|apply rest_refl]. rline. cbn. rests.
  - intros [u r2] H2. apply safe_ok. cbn [fst snd lo_iter] in *. split; [now exists v|]. rests.
Qed.
Lemma loops_safe : forall n s, safe (fun x => Forall (fun y => some_text (lo_iter y)) (fst x) /\ rest_of (snd x) s) (loops_sread n s).
Proof.
  induction n as [|n IH]; intros s; cbn [loops_sread]; [now split; [constructor|apply rest_refl]|].
  eapply safe_bind; [apply loop_one_safe|]. intros [l r] [H1 H2]. eapply safe_bind; [apply IH|]. intros [tl r2] [G1 G2]. cbn [fst snd] in *.
  apply safe_ok. cbn [fst snd]. split; [now constructor|]. rests.
Qed.
Lemma loop_safe s : safe (fun x => Forall (fun y => some_text (lo_iter y)) (fst x) /\ rest_of (snd x) s) (osl_loop_sread s).
Proof. unfold osl_loop_sread. rint. destruct (v <? 0); [exact I|]. eapply safe_mono; [apply loops_safe|]. intros [l r] [H1 H2]. cbn [fst snd] in *. split; [exact H1|]. rests. Qed.
Lemma unrolls_safe : forall fuel s, (List.length s < fuel)%nat ->
  safe (fun x => Forall (fun y => some_text (un_iter y) /\ 0 <= un_factor y < 2 ^ 32) (fst x) /\ rest_of (snd x) s) (unrolls_sread fuel s).
Proof.
  induction fuel as [|k IH]; intros s Hs; [lia|]. cbn [unrolls_sread]. rline. do 3 rint. cbv zeta.
  assert (Hu : some_text (un_iter (Unroll (Some v) (negb (v0 =? 0)) (v1 mod 2 ^ 32))) /\ 0 <= un_factor (Unroll (Some v) (negb (v0 =? 0)) (v1 mod 2 ^ 32)) < 2 ^ 32).
  { cbn [un_iter un_factor]. split; [now exists v|]. apply Z.mod_pos_bound. reflexivity. }
  destruct (v2 =? 1).
  - eapply safe_bind. apply IH.
    + destruct L0, L1, L2. apply rest_le in L. unfold str in *. lia.
    + intros [l r] [G1 G2]. cbn [fst snd] in *. apply safe_ok. cbn [fst snd]. split; [now constructor|]. rests.
  - apply safe_ok. cbn [fst snd]. split; [now repeat constructor|]. rests.
Qed.
Lemma unroll_safe s : safe (fun x => Forall (fun y => some_text (un_iter y) /\ 0 <= un_factor y < 2 ^ 32) (fst x) /\ rest_of (snd x) s) (osl_pluto_unroll_sread s).
Proof.
  unfold osl_pluto_unroll_sread. rint. destruct (v =? 1).
  - eapply safe_mono; [apply unrolls_safe; lia|]. intros [l r] [G1 G2]. cbn [fst snd] in *. split; [exact G1|]. rests.
  - apply safe_ok. cbn [fst snd]. split; [constructor|]. rests.
Qed.
Lemma scatinfos_safe s : safe (fun x => rest_of (snd x) s) (osl_scatinfos_sread s).
Proof.
  unfold osl_scatinfos_sread. rint. destruct (v <? 0); [exact I|].
  repeat (eapply safe_bind; [apply read_ints_safe|]; let H := fresh "H" in intros [? ?] H; cbn [snd] in H).
  apply safe_ok. cbn [snd]. rests.
Qed.
Lemma read_lines_safe : forall n s, safe (fun x => lines_read (fst x) /\ rest_of (snd x) s) (read_lines n s).
Proof.
  induction n as [|n IH]; intros s; cbn [read_lines]; [split; [constructor|apply rest_refl]|]. rint. rline. eapply safe_bind; [apply IH|].
  intros [l r] [H1 H2]. cbn [fst snd] in *. apply safe_ok. cbn [fst snd]. split; [|rests]. constructor; [now exists v0|exact H1].
Qed.
Lemma text_safe s : safe (fun x => lines_read (fst x) /\ rest_of (snd x) s) (text_sread s).
Proof. unfold text_sread. rint. destruct (v <? 0); [exact I|]. eapply safe_mono; [apply read_lines_safe|]. intros [l r] [H1 H2]. cbn [fst snd] in *. split; [exact H1|]. rests. Qed.
Ltac rtext := eapply safe_bind; [apply text_safe|]; let l := fresh "l" in let s' := fresh "s" in let Hl := fresh "Hl" in let H := fresh "L" in
  intros [l s'] [Hl H]; cbn [fst snd] in Hl, H.
Lemma annotation_safe s : safe (fun x => (lines_read (an_prefix (fst x)) /\ lines_read (an_suffix (fst x))) /\ rest_of (snd x) s) (osl_annotation_sread s).
Proof. unfold osl_annotation_sread. do 2 rtext. apply safe_ok. cbn [fst snd an_prefix an_suffix]. split; [now split|]. rests. Qed.
Definition region_got (r : region) : Prop :=
  lines_read (re_prefix r) /\ lines_read (re_suffix r) /\ lines_read (re_prelude r) /\ lines_read (re_postlude r).
Lemma region_one_safe s : safe (fun x => region_got (fst x) /\ rest_of (snd x) s) (region_sread_one s).
Proof. unfold region_sread_one. rint. do 4 rtext. apply safe_ok. cbn [fst snd]. split; [now repeat split|]. rests. Qed.
Lemma regions_safe : forall n s, safe (fun x => Forall region_got (fst x) /\ rest_of (snd x) s) (regions_sread n s).
Proof.
  induction n as [|n IH]; intros s; cbn [regions_sread]; [now split; [constructor|apply rest_refl]|].
  eapply safe_bind; [apply region_one_safe|]. intros [l r] [H1 H2]. eapply safe_bind; [apply IH|]. intros [tl r2] [G1 G2]. cbn [fst snd] in *.
  apply safe_ok. cbn [fst snd]. split; [now constructor|]. rests.
Qed.
Lemma region_safe s : safe (fun x => Forall region_got (fst x) /\ rest_of (snd x) s) (osl_region_sread s).
Proof.
  unfold osl_region_sread. rint. destruct (v <? 0).
  - apply safe_ok. cbn [fst snd]. split; [|rests]. repeat constructor.
  - eapply safe_mono; [apply regions_safe|]. intros [l r] [G1 G2]. cbn [fst snd] in *. split; [exact G1|]. rests.
Qed.

Section DATA.
Context {cfg : config} (Hcfg : config_ok cfg).
Definition dependence_got (p : Z) (d : dependence) : Prop := union_read cfg p (de_domain d) /\ List.length (de_dims d) = 8%nat.
Lemma dependence_one_safe s p : supported cfg p -> safe (fun x => dependence_got p (fst x) /\ rest_of (snd x) s) (osl_dependence_read_one_dep s p).
Proof.
  intros Hp. unfold osl_dependence_read_one_dep. rstr. do 5 rint. eapply safe_bind; [apply skip_safe|]. intros t Ht.
  destruct (span _ t) as [line r] eqn:E. eapply safe_bind; [apply buf_store_safe|]. intros l' ->.
  eapply safe_bind; [apply scan_ints_safe|]. intros dims _. destruct (zlength dims =? 8) eqn:E8; cbn [negb]; [|exact I].
  eapply safe_bind; [apply (psread_safe Hcfg); exact Hp|]. intros [u r2] [H1 H2]. apply safe_ok. cbn [fst snd de_domain de_dims] in *.
  apply Z.eqb_eq in E8. unfold zlength in E8. split.
  - split; [exact H2|]. cbn [de_dims]. lia.
  - eapply rest_trans; [exact H1|]. apply span_rest in E. eapply rest_trans; [apply (rest_app line)|]. rewrite <- E. rests.
Qed.
Lemma dependences_safe p : supported cfg p -> forall n s, safe (fun x => Forall (dependence_got p) (fst x) /\ rest_of (snd x) s) (dependences_sread n s p).
Proof.
  intros Hp. induction n as [|n IH]; intros s; cbn [dependences_sread]; [now split; [constructor|apply rest_refl]|].
  eapply safe_bind; [apply dependence_one_safe; exact Hp|]. intros [l r] [H1 H2]. eapply safe_bind; [apply IH|]. intros [tl r2] [G1 G2]. cbn [fst snd] in *.
  apply safe_ok. cbn [fst snd]. split; [now constructor|]. rests.
Qed.
Lemma dependence_psafe p s : supported cfg p -> safe (fun x => Forall (dependence_got p) (fst x) /\ rest_of (snd x) s) (osl_dependence_psread s p).
Proof. intros Hp. unfold osl_dependence_psread. rint. eapply safe_mono; [apply dependences_safe; exact Hp|]. intros [l r] [G1 G2]. cbn [fst snd] in *. split; [exact G1|]. rests. Qed.

(** ** Extensions *)
Variable env : option str.
Local Notation q := (osl_util_get_precision env).
Lemma q_supported : supported cfg q.
Proof. apply C38_precision_supported. Qed.

Definition one_ok (limit : nat) (one : str -> res (option generic * str)) : Prop :=
  forall s, (List.length s < limit)%nat ->
  safe (fun x => rest_of (snd x) s /\ match fst x with Some g => generic_read cfg q default_registry g | None => True end) (one s).
Lemma node_ok o : match o with Some g => generic_read cfg q default_registry g | None => True end ->
  fold_right (fun g P => generic_read cfg q default_registry g /\ P) True (node o) /\ (List.length (node o) <= 1)%nat.
Proof. destruct o as [g|]; cbn [node fold_right List.length]; intros H; split; auto. Qed.
Lemma symbol_safe limit one s : one_ok limit one -> (List.length s < limit)%nat ->
  safe (fun x => symbol_read cfg q (fst x) /\ rest_of (snd x) s) (symbol_sread_one one s).
Proof.
  intros H1 Hs. unfold symbol_sread_one. rstr. do 2 rint.
  assert (Ls : rest_of s2 s) by rests. pose proof (rest_le _ _ Ls) as Le.
  eapply safe_bind; [apply H1; lia|]. intros [a t] [Ra Ha]. cbn [fst snd] in *. pose proof (rest_le _ _ Ra).
  eapply safe_bind; [apply H1; lia|]. intros [b t1] [Rb Hb]. cbn [fst snd] in *. pose proof (rest_le _ _ Rb).
  eapply safe_bind; [apply H1; lia|]. intros [c t2] [Rc Hc]. cbn [fst snd] in *. pose proof (rest_le _ _ Rc).
  eapply safe_bind; [apply H1; lia|]. intros [e t3] [Re He]. cbn [fst snd] in *. apply safe_ok. cbn [fst snd]. split; [|rests].
  split; [now apply node_ok|]. split; [now apply node_ok|]. split; now apply node_ok.
Qed.
Lemma symbols_loop_safe limit one : one_ok limit one -> forall n s, (List.length s < limit)%nat ->
  safe (fun x => Forall (symbol_read cfg q) (fst x) /\ rest_of (snd x) s) (symbols_sread_loop one n s).
Proof.
  intros H1. induction n as [|n IH]; intros s Hs; cbn [symbols_sread_loop]; [now split; [constructor|apply rest_refl]|].
  eapply safe_bind; [eapply symbol_safe; eassumption|]. intros [x r] [Hx Hr]. cbn [fst snd] in *. pose proof (rest_le _ _ Hr).
  eapply safe_bind; [apply IH; lia|]. intros [l r2] [Hl Hr2]. cbn [fst snd] in *. apply safe_ok. cbn [fst snd].
  split; [now constructor|]. rests.
Qed.
Lemma symbols_with_safe limit one s : one_ok limit one -> (List.length s < limit)%nat ->
  safe (fun x => Forall (symbol_read cfg q) (fst x) /\ rest_of (snd x) s) (symbols_sread_with one s).
Proof.
  intros H1 Hs. unfold symbols_sread_with. destruct (_ <? _); [exact I|]. rint. destruct (v <? 0); [exact I|].
  eapply safe_mono; [eapply symbols_loop_safe; [exact H1|]; destruct L; lia|]. intros [l r] [G1 G2]. cbn [fst snd] in *. split; [exact G1|]. rests.
Qed.
Lemma fold_forall {A} (P : A -> Prop) l : Forall P l -> fold_right (fun x Q => P x /\ Q) True l.
Proof. induction 1; cbn; auto. Qed.
Lemma forall_fold {A} (P : A -> Prop) l : fold_right (fun x Q => P x /\ Q) True l -> Forall P l.
Proof. induction l; cbn; [constructor|]. intros []. constructor; auto. Qed.

Definition got (k : kind) (o : option edata) : Prop :=
  match o with Some d => data_read cfg q k d | None => ~ never_null k end.
Lemma some_list_got {A} k (f : list A -> edata) l : ~ never_null k -> (l <> [] -> data_read cfg q k (f l)) -> got k (some_list f l).
Proof. destruct l; cbn [some_list got]; intros H H1; [exact H|]. apply H1. discriminate. Qed.
Ltac nn := unfold never_null; let X := fresh in intros X; decompose [or] X; discriminate.
Lemma data_safe limit one k content : one_ok limit one -> (forall s, content = Some s -> (List.length s < limit)%nat) ->
  safe (got k) (data_sread env one k content).
Proof.
  intros H1 Hl. unfold data_sread. destruct content as [s|]; [|destruct k; cbn [safe got]; try exact I; nn].
  specialize (Hl s eq_refl). destruct k.
  - eapply safe_bind; [apply strings_safe|]. intros [[x|] e] [H _]; cbn [safe option_map got fst] in *; [exact H|nn].
  - eapply safe_bind; [apply body_safe|]. intros [b r] [H _]. exact H.
  - unfold osl_relation_sread. eapply safe_bind; [apply (psread_safe Hcfg); apply q_supported|]. intros [u r] [_ H]. cbn [fst] in H.
    destruct u as [|x u]; [now elim (proj1 H)|]. exact H.
  - cbn. now exists s.
  - unfold osl_comment_sread. destruct (_ <? _); [exact I|]. cbn. now exists s.
  - exact I.
  - eapply safe_bind; [apply scatinfos_safe|]. intros [i r] _. exact I.
  - eapply safe_bind; [apply scatnames_safe|]. intros [[x|] e] [H _]; cbn [safe option_map got fst] in *; [exact H|nn].
  - eapply safe_bind; [apply arrays_safe|]. intros [i r] _. exact I.
  - eapply safe_bind; [apply coordinates_safe|]. intros [i r] [H _]. exact H.
  - unfold osl_clay_sread. destruct (_ <? _); [exact I|]. cbn. eexists; reflexivity.
  - unfold osl_dependence_sread. eapply safe_bind; [apply dependence_psafe; apply q_supported|]. intros [l r] [H _]. cbn [fst] in H.
    apply some_list_got; [nn|]. intros Hn. split; [exact Hn|exact H].
  - eapply safe_bind; [eapply symbols_with_safe; eassumption|]. intros [l r] [H _]. cbn [fst] in H.
    apply some_list_got; [nn|]. intros Hn. split; [exact Hn|now apply fold_forall].
  - eapply safe_bind; [apply extbody_safe|]. intros [e r] [H _]. exact H.
  - eapply safe_bind; [apply loop_safe|]. intros [l r] [H _]. apply some_list_got; [nn|]. intros Hn. now split.
  - eapply safe_bind; [apply unroll_safe|]. intros [l r] [H _]. apply some_list_got; [nn|]. intros Hn. now split.
  - eapply safe_bind; [apply region_safe|]. intros [l r] [H _]. apply some_list_got; [nn|]. intros Hn. now split.
  - eapply safe_bind; [apply annotation_safe|]. intros [a r] [H _]. exact H.
Qed.
Lemma lookup_in registry uri i : osl_interface_lookup registry uri = Some i -> In i registry /\ if_uri i <> None.
Proof.
  induction registry as [|x l IH]; cbn [osl_interface_lookup]; [discriminate|]. destruct (if_uri x) as [u|] eqn:E.
  - destruct (str_eqb u uri).
    + intros H. assert (x = i) by congruence. subst. split; [now left|congruence].
    + intros H. apply IH in H. destruct H. split; [now right|assumption].
  - intros H. apply IH in H. destruct H. split; [now right|assumption].
Qed.
Definition got_generic (registry : list interf) (o : option generic) : Prop :=
  match o with Some g => generic_read cfg q registry g | None => True end.
Lemma make_safe limit one registry tag content : one_ok limit one -> (forall s, content = Some s -> (List.length s < limit)%nat) ->
  safe (got_generic registry) (make_generic env one registry tag content).
Proof.
  intros H1 Hl. unfold make_generic. destruct (osl_interface_lookup registry tag) as [i|] eqn:E; [|exact I]. apply lookup_in in E. destruct E as [E1 E2].
  eapply safe_bind; [eapply data_safe; eassumption|]. intros [d|] Hd; (split; [exact E1|split; [exact E2|exact Hd]]).
Qed.
Lemma sread_one_safe : forall fuel registry s, (List.length s < fuel)%nat ->
  safe (fun x => rest_of (snd x) s /\ (s <> [] -> less (snd x) s) /\ got_generic registry (fst x)) (sread_one_fuel env fuel registry s).
Proof.
  induction fuel as [|k IH]; intros registry s Hs; [lia|]. cbn [sread_one_fuel]. eapply safe_bind; [apply read_tag_safe|].
  intros [t s1] (H1 & H2 & H3). cbn [fst snd] in *. destruct (usable_tag t) as [[tag|]| | |] eqn:Et; cbn [bind]; try exact I; [|exact (conj H1 (conj H2 I))|now destruct t as [[|? ?]|]].
  destruct (osl_util_read_uptoendtag_s s1 tag) as [content s2] eqn:Eu. apply uptoendtag_safe in Eu. destruct Eu as [U1 U2].
  specialize (H3 ltac:(now destruct t)).
  eapply safe_bind.
  - apply (make_safe k).
    + intros x Hx. eapply safe_mono; [apply IH; exact Hx|]. intros [g r] (G1 & _ & G3). now split.
    + intros x Ex. apply U2 in Ex. destruct H3 as [_ H3]. unfold str in *. lia.
  - intros g Hg. apply safe_ok. cbn [fst snd]. split; [eapply rest_trans; eassumption|]. split; [|exact Hg].
    intros _. eapply rest_less; [exact U1|exact H3].
Qed.
End DATA.

(** ** The integrity check ends *)
Definition fin {A} (r : res A) : Prop := safe (fun _ => True) r.
Lemma fin_bind {A B} (r : res A) (f : A -> res B) : fin r -> (forall a, fin (f a)) -> fin (bind r f).
Proof. intros H H1. eapply safe_bind; [exact H|]. intros a _. apply H1. Qed.
Lemma fin_cforall lo hi cond : (forall i, fin (cond i)) -> fin (cforall lo hi cond).
Proof.
  intros H. unfold cforall. generalize (Z.to_nat (hi - lo)) as n. intros n. generalize lo as i. clear lo hi. induction n as [|n IH]; intros i; [exact I|]. cbn [forall_loop].
  apply fin_bind; [apply H|]. intros []; [apply IH|exact I].
Qed.
Lemma fin_cfor {S} lo hi (body : Z -> S -> res S) s : (forall i s, fin (body i s)) -> fin (cfor lo hi body s).
Proof. intros H. apply (safe_cfor (fun _ => True)); [exact I|]. intros j x _ _. apply H. Qed.
Lemma fin_aget {A} (l : list A) i : fin (aget l i).
Proof. unfold aget. destruct (_ <? _); [exact I|]. destruct (nth_error _ _); exact I. Qed.
Lemma fin_mget {A} (l : list (list A)) i j : fin (mget l i j).
Proof. unfold mget. apply fin_bind; intros; apply fin_aget. Qed.
Ltac fin1 := match goal with
  | |- fin (bind _ _) => apply fin_bind; [|intros]
  | |- fin (if ?b then _ else _) => destruct b
  | |- fin (match ?x with _ => _ end) => destruct x
  | |- fin (mget _ _ _) => apply fin_mget
  | |- fin (cforall _ _ _) => apply fin_cforall; intros
  | |- fin (cfor _ _ _ _) => apply fin_cfor; intros
  | |- fin (Ok _) => exact I
  | |- fin Err => exact I
  | |- fin UB => exact I
  end.
Section CHECK.
Context {cfg : config}.
Lemma fin_part_id r : fin (part_array_id r).
Proof.
  unfold part_array_id, array_id_rows, osl_int_zero, osl_int_divisible, osl_int_get_si, c_neg, c_div, c_rem, csigned, pswitch. repeat (fin1 || intros).
Qed.
Lemma fin_array_loop : forall r ref last, fin (array_id_loop r ref last).
Proof.
  induction r as [|x r IH]; intros ref last; cbn [array_id_loop]; [exact I|]. apply fin_bind; [apply fin_part_id|].
  intros [id|]; [|exact I]. destruct ref as [y|]; [destruct (negb _); [exact I|]|]; apply IH.
Qed.
Lemma fin_array_id r : fin (osl_relation_get_array_id r).
Proof. unfold osl_relation_get_array_id. destruct r; [exact I|]. destruct (negb _); [exact I|apply fin_array_loop]. Qed.
Lemma fin_integrity_part r part eo ei ep : fin (integrity_part r part eo ei ep).
Proof.
  unfold integrity_part, osl_int_zero, osl_int_one, pswitch. repeat (fin1 || apply fin_array_id).
Qed.
Lemma fin_integrity_loop : forall r eo ei ep, fin (integrity_loop r eo ei ep).
Proof.
  induction r as [|x r IH]; intros eo ei ep; cbn [integrity_loop]; [exact I|]. apply fin_bind; [apply fin_integrity_part|].
  intros []; [apply IH|exact I].
Qed.
Lemma fin_integrity u t eo ei ep : fin (osl_relation_integrity_check u t eo ei ep).
Proof.
  unfold osl_relation_integrity_check. destruct u; [exact I|].
  repeat (match goal with |- fin (if ?b then _ else _) => destruct b; [exact I|] end).
  destruct (osl_relation_check_attribute eo _) as [[] ?]; cbn [negb]; [|exact I].
  destruct (osl_relation_check_attribute ei _) as [[] ?]; cbn [negb]; [|exact I].
  destruct (osl_relation_check_attribute ep _) as [[] ?]; cbn [negb]; [|exact I]. apply fin_integrity_loop.
Qed.
Lemma fin_list_integrity : forall l t eo ei ep, fin (osl_relation_list_integrity_check l t eo ei ep).
Proof.
  induction l as [|u l IH]; intros; cbn [osl_relation_list_integrity_check]; [exact I|]. apply fin_bind; [apply fin_integrity|].
  intros []; [apply IH|exact I].
Qed.
Lemma fin_body_of l : fin (body_of l).
Proof. unfold body_of. destruct (osl_generic_lookup _ _) as [[]|]; exact I. Qed.
Lemma fin_statement_integrity : forall l ep, fin (osl_statement_integrity_check l ep).
Proof.
  induction l as [|s l IH]; intros ep; cbn [osl_statement_integrity_check]; [exact I|].
  apply fin_bind; [apply fin_integrity|]. intros []; cbn [negb]; [|exact I]. cbv zeta.
  apply fin_bind; [apply fin_integrity|]. intros []; cbn [negb]; [|exact I].
  apply fin_bind; [apply fin_list_integrity|]. intros []; cbn [negb]; [|exact I].
  apply fin_bind; [apply fin_body_of|]. intros o. match goal with |- fin (if ?b then _ else _) => destruct b end; [exact I|apply IH].
Qed.
Lemma fin_scop_integrity : forall l, fin (osl_scop_integrity_check l).
Proof.
  induction l as [|s l IH]; cbn [osl_scop_integrity_check]; [exact I|].
  apply fin_bind; [apply fin_integrity|]. intros []; cbn [negb]; [|exact I].
  apply fin_bind; [apply fin_statement_integrity|]. intros []; cbn [negb]; [|exact I]. exact IH.
Qed.
End CHECK.

(** ** Lists of extensions *)
Section SCOPS.
Context {cfg : config} (Hcfg : config_ok cfg).
Variable env : option str.
Local Notation q := (osl_util_get_precision env).

Lemma one_safe registry s :
  safe (fun x => rest_of (snd x) s /\ (s <> [] -> less (snd x) s) /\ got_generic (cfg := cfg) env registry (fst x)) (osl_generic_sread_one env registry s).
Proof. apply (sread_one_safe Hcfg). lia. Qed.
Lemma generic_uri p registry g : generic_read cfg p registry g -> exists u, g_uri g = Some u.
Proof.
  destruct g as [[i|] [d|]]; cbn; try tauto; intros (_ & H & _); unfold g_uri; cbn [g_iface]; destruct (if_uri i) as [u|]; try (now exists u); now elim H.
Qed.
Lemma str_eqb_same u : str_eqb u u = true.
Proof. now apply str_eqb_eq. Qed.
Lemma lookup_first l u : (exists g, In g l /\ g_uri g = Some u) -> Forall (fun g => g_data g <> None) l -> osl_generic_lookup l u <> None.
Proof.
  induction l as [|x l IH]; intros (g & Hg & Hu) F; [destruct Hg|]. cbn [osl_generic_lookup]. inversion F; subst.
  unfold has_uri. destruct (g_uri x) as [v|] eqn:E.
  - destruct (str_eqb v u) eqn:Ev; [assumption|]. apply IH; [|assumption]. exists g. split; [|assumption]. destruct Hg as [-> |Hg]; [|exact Hg].
    rewrite E in Hu. assert (v = u) by congruence. subst. rewrite str_eqb_same in Ev. discriminate.
  - apply IH; [|assumption]. exists g. split; [|assumption]. destruct Hg as [-> |Hg]; [congruence|exact Hg].
Qed.
Lemma add_safe registry l g : generics_read cfg q registry l -> got_generic (cfg := cfg) env registry g ->
  safe (generics_read cfg q registry) (osl_generic_add l g).
Proof.
  intros [H1 H2] Hg. unfold osl_generic_add. destruct g as [g|]; [|now split]. cbn [got_generic] in Hg.
  destruct (generic_uri _ _ _ Hg) as [u Eu]. rewrite Eu. destruct (osl_generic_lookup l u) eqn:El; [exact I|]. split.
  - apply Forall_app. split; [exact H1|]. now constructor.
  - intros F. apply Forall_app in F. destruct F as [F _]. rewrite map_app. cbn [map].
    apply (Permutation.Permutation_NoDup (Permutation.Permutation_cons_append (map g_uri l) (g_uri g))). constructor; [|now apply H2].
    rewrite Eu. intros Hin. apply in_map_iff in Hin. destruct Hin as (x & Ex & Hx).
    apply (lookup_first l u); [now exists x|exact F|exact El].
Qed.
Lemma sread_loop_safe registry : forall fuel l s, (List.length s < fuel)%nat -> generics_read cfg q registry l ->
  safe (fun x => generics_read cfg q registry (fst x) /\ snd x = []) (sread_loop env fuel registry l s).
Proof.
  induction fuel as [|k IH]; intros l s Hs Hl; [lia|]. cbn [sread_loop]. destruct s as [|c s]; [now split|].
  eapply safe_bind; [apply one_safe|]. intros [g r] (H1 & H2 & H3). cbn [fst snd] in *. specialize (H2 ltac:(discriminate)).
  eapply safe_bind; [eapply add_safe; eassumption|]. intros l' Hl'. apply IH; [|exact Hl']. destruct H2. cbn in *. lia.
Qed.
Lemma no_generics registry : generics_read cfg q registry [].
Proof. split; constructor. Qed.
Lemma generic_sread_safe registry s : safe (fun x => generics_read cfg q registry (fst x) /\ snd x = []) (osl_generic_sread env s registry).
Proof. apply sread_loop_safe; [lia|apply no_generics]. Qed.
Lemma fone_safe registry f : safe (fun x => frest (snd x) f /\ got_generic (cfg := cfg) env registry (fst x)) (osl_generic_read_one env f registry).
Proof.
  unfold osl_generic_read_one. eapply safe_bind; [apply fread_tag_safe|]. intros [t g] H1. cbn [snd] in H1.
  destruct (usable_tag t) as [[tag|]| | |] eqn:Et; cbn [bind]; try exact I; [|now split|now destruct t as [[|? ?]|]]. eapply safe_bind; [apply fuptoendtag_safe|]. intros [content h] [H2 _]. cbn [snd] in H2.
  eapply safe_bind.
  - apply (make_safe Hcfg env (match content with Some c => S (List.length c) | None => 0 end) _).
    + intros s _. eapply safe_mono; [apply one_safe|]. intros x (G1 & _ & G3). now split.
    + intros s ->. lia.
  - intros g' Hg'. apply safe_ok. cbn [fst snd]. split; [eapply frest_trans; eassumption|exact Hg'].
Qed.
Lemma fread_safe registry f : safe (fun x => frest (snd x) f /\ generics_read cfg q registry (fst x)) (osl_generic_read env f registry).
Proof.
  unfold osl_generic_read. eapply safe_bind; [apply fuptoendtag_safe|]. intros [[s|] g] [H1 _]; [|exact I]. cbn [snd] in H1.
  eapply safe_bind; [apply generic_sread_safe|]. intros [l r] [H2 _]. now apply safe_ok.
Qed.

(** ** Lists of relations, statements, scops *)
Definition union_got (p : Z) (u : list relation) : Prop := union_read cfg p u /\ exists t, Forall (fun r => rtype r = t) u.
Lemma relations_safe p : supported cfg p -> forall n f, safe (fun x => frest (snd x) f /\ Forall (union_got p) (fst x)) (read_relations n f p).
Proof.
  intros Hp. induction n as [|n IH]; intros f; cbn [read_relations]; [split; [apply frest_refl|constructor]|].
  eapply safe_bind; [apply (pread_safe Hcfg); exact Hp|]. intros [u g] (H1 & H2). eapply safe_bind; [apply IH|].
  intros [l h] (G1 & G2). cbn [fst snd] in *. apply safe_ok. cbn [fst snd]. split; [eapply frest_trans; eassumption|]. now constructor.
Qed.
Lemma list_safe p f : supported cfg p ->
  safe (fun x => frest (snd x) f /\ (fst x = [[]] \/ Forall (union_got p) (fst x))) (osl_relation_list_pread f p).
Proof.
  intros Hp. unfold osl_relation_list_pread. eapply safe_bind; [apply fread_int_safe|]. intros [n g] [_ H]. cbn [fst snd] in H.
  destruct (n <? 0); [exact I|]. destruct (n =? 0); [apply safe_ok; cbn [fst snd]; auto|].
  eapply safe_mono; [apply relations_safe; exact Hp|]. intros [l h] (G1 & G2). cbn [fst snd] in *.
  split; [eapply frest_trans; eassumption|]. now right.
Qed.
Lemma matching p l t : l = [[]] \/ Forall (union_got p) l ->
  Forall (fun u => union_got p u /\ list_match t u = true) (osl_relation_list_filter l t).
Proof.
  intros H. apply Forall_forall. intros u Hu. unfold osl_relation_list_filter in Hu. apply filter_In in Hu. destruct Hu as [Hu Hm].
  split; [|exact Hm]. destruct H as [-> |H]; [|rewrite Forall_forall in H; now apply H].
  destruct Hu as [<- |[]]. discriminate.
Qed.
Lemma match_type t u : t <> TYPE_ACCESS -> list_match t u = true -> exists r l, u = r :: l /\ rtype r = t.
Proof.
  intros Ht. unfold list_match. destruct u as [|r u]; [discriminate|]. destruct (Z.eqb_spec t TYPE_ACCESS); [easy|]. cbn [andb orb negb].
  intros H. apply Z.eqb_eq in H. now exists r, u.
Qed.
Lemma match_access u : list_match TYPE_ACCESS u = true -> exists r l, u = r :: l /\ osl_relation_is_access r = true.
Proof.
  unfold list_match. destruct u as [|r u]; [discriminate|]. rewrite Z.eqb_refl. cbn [andb orb negb]. rewrite orb_false_r. intros H. now exists r, u.
Qed.
Lemma uniform_typed p (P : Z -> Prop) r u : union_got p (r :: u) -> P (rtype r) -> typed P (r :: u).
Proof.
  intros [_ [t H]] Hr. inversion H; subst. unfold typed. revert H. apply Forall_impl. intros x E. now rewrite E.
Qed.
Lemma dispatch_safe p l : l = [[]] \/ Forall (union_got p) l ->
  safe (fun s => statement_read cfg p q [] s) (osl_statement_dispatch l).
Proof.
  intros H. unfold osl_statement_dispatch. cbv zeta. destruct (_ <? _); [exact I|]. destruct (_ <? _); [exact I|]. destruct (negb _); [exact I|].
  pose proof (matching p l TYPE_DOMAIN H) as D. pose proof (matching p l TYPE_SCATTERING H) as S. pose proof (matching p l TYPE_ACCESS H) as A.
  unfold safe, statement_read. cbn [st_domain st_scattering st_access st_ext].
  split; [|split; [|split; [|apply no_generics]]].
  - destruct (osl_relation_list_filter l TYPE_DOMAIN) as [|u v]; [now left|right]. cbn [hd]. inversion D as [|? ? [[U T] M]]; subst.
    destruct (match_type TYPE_DOMAIN u ltac:(discriminate) M) as (r & w & -> & E). split; [exact U|]. eapply uniform_typed; [split; [exact U|exact T]|exact E].
  - destruct (osl_relation_list_filter l TYPE_SCATTERING) as [|u v]; [now left|right]. cbn [hd]. inversion S as [|? ? [[U T] M]]; subst.
    destruct (match_type TYPE_SCATTERING u ltac:(discriminate) M) as (r & w & -> & E). split; [exact U|]. eapply uniform_typed; [split; [exact U|exact T]|exact E].
  - revert A. apply Forall_impl. intros u [[U T] M]. split; [exact U|]. destruct (match_access u M) as (r & w & -> & E).
    eapply uniform_typed; [split; [exact U|exact T]|]. destruct U as [_ U]. inversion U as [|? ? (_ & _ & In0) _]; subst.
    unfold named_types in In0. cbn in In0. unfold osl_relation_is_access in E.
    repeat (destruct In0 as [In0|In0]; [rewrite <- In0 in *; try (exfalso; discriminate E); cbn; tauto|]). destruct In0.
Qed.
Lemma extensions_safe registry : forall n l f, generics_read cfg q registry l ->
  safe (fun x => frest (snd x) f /\ generics_read cfg q registry (fst x)) (read_extensions env n registry l f).
Proof.
  induction n as [|n IH]; intros l f Hl; cbn [read_extensions]; [split; [apply frest_refl|exact Hl]|].
  eapply safe_bind; [apply fone_safe|]. intros [g h] [H1 H2]. eapply safe_bind; [eapply add_safe; eassumption|]. intros l' Hl'. cbn [fst snd] in *.
  eapply safe_mono; [apply IH; exact Hl'|]. intros [e k] [G1 G2]. split; [eapply frest_trans; eassumption|exact G2].
Qed.
Lemma statement_safe registry p f : supported cfg p ->
  safe (fun x => frest (snd x) f /\ statement_read cfg p q registry (fst x)) (osl_statement_pread env f registry p).
Proof.
  intros Hp. unfold osl_statement_pread. eapply safe_bind; [apply list_safe; exact Hp|]. intros [l g] [H1 H2]. cbn [fst snd] in *.
  eapply safe_bind; [apply (dispatch_safe p); exact H2|]. intros s (D & S & A & _). eapply safe_bind; [apply fread_int_safe|]. intros [n h] [_ H3]. cbn [fst snd] in *.
  eapply safe_bind; [apply extensions_safe; apply no_generics|]. intros [e k] [H4 H5]. cbn [fst snd] in *. apply safe_ok. cbn [fst snd].
  split; [eapply frest_trans; [exact H4|]; eapply frest_trans; eassumption|]. exact (conj D (conj S (conj A H5))).
Qed.
Lemma statements_safe registry p : supported cfg p -> forall n f,
  safe (fun x => frest (snd x) f /\ Forall (statement_read cfg p q registry) (fst x)) (read_statements env n registry p f).
Proof.
  intros Hp. induction n as [|n IH]; intros f; cbn [read_statements]; [split; [apply frest_refl|constructor]|].
  eapply safe_bind; [apply statement_safe; exact Hp|]. intros [u g] (H1 & H2). eapply safe_bind; [apply IH|].
  intros [l h] (G1 & G2). cbn [fst snd] in *. apply safe_ok. cbn [fst snd]. split; [eapply frest_trans; eassumption|]. now constructor.
Qed.
Lemma scop_one_safe registry p f : supported cfg p ->
  safe (fun x => frest (snd x) f /\ scop_read cfg p q registry (fst x)) (scop_pread_one env registry p f).
Proof.
  intros Hp. unfold scop_pread_one. eapply safe_bind; [apply fstrings_safe|]. intros [o g] [_ H1]. cbn [snd] in H1.
  destruct (match o with Some s => elems s | None => [] end) as [|lang ws]; [exact I|].
  eapply safe_bind; [apply (pread_safe Hcfg); exact Hp|]. intros [c f2] (H2 & Hc & _). cbn [fst snd] in *.
  eapply safe_bind; [apply fread_int_safe|]. intros [b f3] [_ H3]. cbn [snd] in H3.
  eapply (safe_bind (fun x => frest (snd x) f3 /\ got_generic (cfg := cfg) env registry (fst x))).
  { destruct (0 <? b); [apply fone_safe|]. split; [apply frest_refl|exact I]. }
  intros [ps f4] [H4 Hps]. cbn [fst snd] in *. eapply safe_bind; [apply fread_int_safe|]. intros [n f5] [_ H5]. cbn [snd] in H5.
  eapply safe_bind; [apply statements_safe; exact Hp|]. intros [l f6] [H6 Hl]. cbn [fst snd] in *.
  eapply safe_bind; [apply fread_safe|]. intros [e f7] [H7 He]. cbn [fst snd] in *. apply safe_ok. cbn [fst snd]. split.
  - eapply frest_trans; [exact H7|]. eapply frest_trans; [exact H6|]. eapply frest_trans; [exact H5|]. eapply frest_trans; [exact H4|].
    eapply frest_trans; [exact H3|]. eapply frest_trans; eassumption.
  - unfold scop_read. cbn [sc_version sc_language sc_registry sc_context sc_params sc_stmts sc_ext].
    split; [reflexivity|]. split; [now exists lang|]. split; [reflexivity|]. split; [exact Hc|].
    destruct ps as [g'|]; cbn [node List.length got_generic] in *; (split; [repeat constructor; exact Hps|split; [lia|split; [exact Hl|exact He]]]).
Qed.
Lemma scops_safe registry p : supported cfg p -> forall fuel f, (List.length (ftext f) < fuel)%nat ->
  safe (fun x => frest (snd x) f /\ Forall (scop_read cfg p q registry) (fst x)) (scops_pread env fuel registry p f).
Proof.
  intros Hp. induction fuel as [|k IH]; intros f Hf; [lia|]. cbn [scops_pread]. eapply safe_bind; [apply fuptotag_safe|].
  intros [t g] [H1 H2]. cbn [fst snd] in *. destruct t as [t|]; [|split; [exact H1|constructor]]. specialize (H2 ltac:(discriminate)).
  eapply safe_bind; [apply scop_one_safe; exact Hp|]. intros [s h] [H3 Hs]. cbn [fst snd] in *. pose proof (rest_le _ _ H3).
  eapply safe_bind; [apply IH; unfold str in *; lia|]. intros [l h2] [H4 Hl]. cbn [fst snd] in *. apply safe_ok. cbn [fst snd].
  split; [eapply frest_trans; [exact H4|]; eapply frest_trans; eassumption|]. now constructor.
Qed.
Lemma scop_safe registry p f : supported cfg p ->
  safe (fun x => frest (snd x) f /\ Forall (scop_read cfg p q registry) (fst x)) (osl_scop_pread env f registry p).
Proof.
  intros Hp. unfold osl_scop_pread. eapply safe_bind; [apply scops_safe; [exact Hp|lia]|]. intros [l g] H.
  eapply safe_bind; [apply fin_scop_integrity|]. intros b _. exact H.
Qed.
End SCOPS.
