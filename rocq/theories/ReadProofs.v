(** * ReadProofs: every reader ends, on every input (C58) *)
From Verif Require Import Base IntModel Spec RelSpec LoopLemmas IntProofs TextSpec UtilModel UtilProofs PropUtil StringsModel
  RelationModel RelationProofs RelTextModel RelTextProofs ExtModel ScopModel ReadSpec.

(** ** The two facts at once *)
Definition safe {A} (P : A -> Prop) (r : res A) : Prop :=
  match r with Ok a => P a | Err | UB => True | OutOfFuel => False end.
Lemma safe_bind {A B} (P : A -> Prop) (Q : B -> Prop) r (f : A -> res B) :
  safe P r -> (forall a, P a -> safe Q (f a)) -> safe Q (bind r f).
Proof. destruct r; cbn; auto. Qed.
Lemma safe_mono {A} (P Q : A -> Prop) r : safe P r -> (forall a, P a -> Q a) -> safe Q r.
Proof. destruct r; cbn; auto. Qed.
Lemma safe_ok {A} (P : A -> Prop) (a : A) : P a -> safe P (Ok a).
Proof. exact (fun H => H). Qed.
Lemma safe_ends {A} (P : A -> Prop) r : safe P r -> ends r /\ forall a, r = Ok a -> P a.
Proof. destruct r; cbn; intros H; split; try discriminate; try contradiction; intros x E; congruence. Qed.
Lemma safe_intro {A} (P : A -> Prop) r : ends r -> (forall a, r = Ok a -> P a) -> safe P r.
Proof. destruct r; cbn; intros H H1; auto. Qed.
Lemma safe_for {S} (P : S -> Prop) n : forall i (body : Z -> S -> res S) s, P s ->
  (forall j s, i <= j < i + Z.of_nat n -> P s -> safe P (body j s)) -> safe P (for_loop n i body s).
Proof.
  induction n as [|n IH]; intros i body s H0 Hs; cbn [for_loop]; [exact H0|].
  eapply safe_bind; [apply Hs; [lia|exact H0]|]. intros s1 H1. apply IH; [exact H1|]. intros j x Hj. apply Hs. lia.
Qed.
Lemma safe_cfor {S} (P : S -> Prop) lo hi (body : Z -> S -> res S) s : P s ->
  (forall j s, lo <= j < hi -> P s -> safe P (body j s)) -> safe P (cfor lo hi body s).
Proof. intros H0 Hs. unfold cfor. apply safe_for; [exact H0|]. intros j x Hj. apply Hs. lia. Qed.

(** ** What is left of a text *)
Lemma rest_refl s : rest_of s s.
Proof. now exists []. Qed.
Lemma rest_nil s : rest_of [] s.
Proof. exists s. now rewrite app_nil_r. Qed.
Lemma rest_trans a b c : rest_of a b -> rest_of b c -> rest_of a c.
Proof. intros [x ->] [y ->]. exists (y ++ x). now rewrite app_assoc. Qed.
Lemma rest_app a b : rest_of b (a ++ b).
Proof. now exists a. Qed.
Lemma rest_cons c s : rest_of s (c :: s).
Proof. now exists [c]. Qed.
Lemma rest_le a b : rest_of a b -> (List.length a <= List.length b)%nat.
Proof. intros [x ->]. rewrite app_length. lia. Qed.
Lemma rest_skipn n s : rest_of (skipn n s) s.
Proof. exists (firstn n s). now rewrite firstn_skipn. Qed.
Lemma rest_span p s : rest_of (snd (span p s)) s.
Proof. exists (fst (span p s)). apply span_split. Qed.
Lemma rest_spaces s : rest_of (skip_spaces s) s.
Proof.
  induction s as [|c s IH]; cbn [skip_spaces]; [apply rest_refl|]. destruct (is_space c); [|apply rest_refl].
  eapply rest_trans; [exact IH|apply rest_cons].
Qed.
Lemma span_rest p s t r : span p s = (t, r) -> s = t ++ r.
Proof. intros E. pose proof (span_split p s) as H. rewrite E in H. exact H. Qed.

Lemma buf_store_safe t : safe (fun x => x = t) (buf_store t).
Proof. unfold buf_store. destruct (_ <? _); cbn; auto. Qed.

(** ** Strings *)
Lemma sskip_safe : forall fuel s, (List.length s < fuel)%nat -> safe (fun r => rest_of r s) (sskip_loop fuel s).
Proof.
  induction fuel as [|k IH]; intros s Hs; [lia|]. cbn [sskip_loop]. set (s1 := snd (span is_space s)).
  assert (H1 : rest_of s1 s) by apply rest_span. pose proof (rest_le _ _ H1) as L1.
  destruct s1 as [|c s1'] eqn:E1; [exact H1|].
  destruct (ceqb c c_hash) eqn:Ec.
  - cbv zeta. cbn [span]. assert (Hn : negb (ceqb c c_nl) = true).
    { apply Ascii.eqb_eq in Ec. subst c. reflexivity. }
    rewrite Hn. destruct (span (fun c0 => negb (ceqb c0 c_nl)) s1') as [a b] eqn:Es. cbn [snd].
    assert (Hb : rest_of b s). { eapply rest_trans; [|exact H1]. exists (c :: a). cbn. f_equal. eapply span_rest; eassumption. }
    assert (Lb : (List.length b <= List.length s1')%nat). { apply span_rest in Es. rewrite Es, app_length. lia. }
    cbn [List.length] in L1. destruct b as [|d b]; [exact Hb|]. destruct (ceqb d c_nl); [|exact Hb].
    eapply safe_mono; [apply IH; unfold str in *; cbn [List.length] in *; lia|]. intros x Hx. exact (rest_trans _ _ _ Hx Hb).
  - cbv zeta. destruct (ceqb c c_nl) eqn:En; [|exact H1]. exfalso.
    apply Ascii.eqb_eq in En. subst c. pose proof (span_snd is_space s) as Hh. change (snd (span is_space s)) with s1 in Hh. rewrite E1 in Hh. discriminate Hh.
Qed.
Lemma skip_safe s : safe (fun r => rest_of r s) (osl_util_sskip_blank_and_comments s).
Proof. apply sskip_safe. lia. Qed.

Definition less (r s : str) : Prop := rest_of r s /\ (List.length r < List.length s)%nat.
Lemma less_rest r s : less r s -> rest_of r s.
Proof. now intros []. Qed.
Lemma less_trans a b c : less a b -> rest_of b c -> less a c.
Proof. intros [H L] H1. split; [eapply rest_trans; eassumption|]. apply rest_le in H1. lia. Qed.
Lemma rest_less a b c : rest_of a b -> less b c -> less a c.
Proof. intros H [H1 L]. split; [eapply rest_trans; eassumption|]. apply rest_le in H. lia. Qed.
Lemma span_less p s t r : span p s = (t, r) -> t <> [] -> less r s.
Proof.
  intros E Ht. apply span_rest in E. subst. split; [apply rest_app|]. rewrite app_length. destruct t; [easy|]. cbn. lia.
Qed.
Lemma scan_int_safe t : safe (fun v => c_int v /\ t <> []) (scan_int t).
Proof.
  unfold scan_int, scan_Z. destruct t as [|c t]; [exact I|].
  match goal with |- safe _ (match ?x with _ => _ end) => destruct x as [[[v r]|]|]; try exact I end.
  destruct (fits 32 v) eqn:E; [|exact I]. split; [|discriminate].
  unfold c_int. unfold fits in E. apply andb_true_iff in E. destruct E as [E1 E2].
  apply Z.leb_le in E1, E2. unfold smin, smax in *. change (32 - 1) with 31 in *. lia.
Qed.
Lemma read_int_safe s : safe (fun x => c_int (fst x) /\ less (snd x) s) (osl_util_read_int_s s).
Proof.
  unfold osl_util_read_int_s. eapply safe_bind; [apply skip_safe|]. intros s1 H1. destruct (span is_tok s1) as [t s2] eqn:E.
  eapply safe_bind; [apply buf_store_safe|]. intros t' ->. eapply safe_bind; [apply scan_int_safe|]. intros v [Hv Ht].
  apply safe_ok. split; [exact Hv|]. cbn [snd]. eapply less_trans; [|exact H1]. eapply span_less; eassumption.
Qed.
Lemma scan_str_safe t : safe (fun _ => t <> []) (scan_str t).
Proof. unfold scan_str. destruct t as [|c t]; [exact I|]. destruct (skip_spaces (c :: t)); [exact I|]. cbn. discriminate. Qed.
Lemma read_string_safe s : safe (fun x => less (snd x) s) (osl_util_read_string_s s).
Proof.
  unfold osl_util_read_string_s. eapply safe_bind; [apply skip_safe|]. intros s1 H1. destruct (span is_tok s1) as [t s2] eqn:E.
  eapply safe_bind; [apply buf_store_safe|]. intros t' ->. eapply safe_bind; [apply scan_str_safe|]. intros v Ht.
  apply safe_ok. cbn [snd]. eapply less_trans; [|exact H1]. eapply span_less; eassumption.
Qed.
Lemma read_line_safe s : safe (fun x => rest_of (snd x) s) (osl_util_read_line_s s).
Proof.
  unfold osl_util_read_line_s. eapply safe_bind; [apply skip_safe|]. intros s1 H1. destruct (span in_line s1) as [t s2] eqn:E.
  eapply safe_bind; [apply buf_store_safe|]. intros t' ->. apply safe_ok. cbn [snd]. eapply rest_trans; [|exact H1].
  apply span_rest in E. subst. apply rest_app.
Qed.
Lemma read_tag_loop_safe : forall s i, safe (fun x => less (snd x) s) (read_tag_loop i s).
Proof.
  induction s as [|c s IH]; intros i; cbn [read_tag_loop]; [exact I|]. destruct (ceqb c c_gt).
  - apply safe_ok. split; [apply rest_cons|]. cbn. lia.
  - destruct (tag_char i c); [|exact I]. destruct (_ <? _); [exact I|]. eapply safe_bind; [apply IH|]. intros [n r] H.
    apply safe_ok. eapply less_trans; [exact H|]. apply rest_cons.
Qed.
Lemma read_tag_at_safe s : safe (fun x => less (snd x) s) (read_tag_at s).
Proof.
  unfold read_tag_at. destruct s as [|c s]; [exact I|]. destruct (ceqb c c_lt); [|exact I].
  eapply safe_mono; [apply read_tag_loop_safe|]. intros x H. eapply less_trans; [exact H|]. apply rest_cons.
Qed.
Lemma read_tag_safe s : safe (fun x => rest_of (snd x) s /\ (s <> [] -> less (snd x) s) /\ (fst x <> None -> less (snd x) s))
  (osl_util_read_tag_s s).
Proof.
  unfold osl_util_read_tag_s. eapply safe_bind; [apply skip_safe|]. intros s1 H1. destruct s1 as [|c s1].
  - apply safe_ok. cbn. split; [apply rest_nil|]. split; [|congruence]. intros H. split; [apply rest_nil|]. destruct s; [easy|cbn; lia].
  - eapply safe_bind; [apply read_tag_at_safe|]. intros [n r] H. apply safe_ok. cbn [fst snd] in *.
    split; [eapply rest_trans; [exact (less_rest _ _ H)|exact H1]|]. split; intros _; eapply less_trans; eassumption.
Qed.
Lemma uptoflag_safe flag : forall s acc o r, uptoflag_loop flag acc s = (o, r) ->
  rest_of r s /\ forall t, o = Some t -> (List.length t <= List.length acc + List.length s)%nat.
Proof.
  induction s as [|c s IH]; intros acc o r H; cbn [uptoflag_loop] in H.
  - inversion H; subst. split; [apply rest_refl|discriminate].
  - destruct (flag_here flag (acc ++ [c])).
    + inversion H; subst. split; [apply rest_cons|]. intros t E. assert (E' : firstn (List.length (acc ++ [c]) - List.length flag) (acc ++ [c]) = t) by congruence. rewrite <- E'.
      rewrite firstn_length, app_length; cbn; lia.
    + apply IH in H. destruct H as [H1 H2]. split; [eapply rest_trans; [exact H1|apply rest_cons]|].
      intros t E. apply H2 in E. rewrite app_length in E. cbn in *. lia.
Qed.
Lemma uptoendtag_safe s name o r : osl_util_read_uptoendtag_s s name = (o, r) ->
  rest_of r s /\ forall t, o = Some t -> (List.length t <= List.length s)%nat.
Proof. intros H. apply uptoflag_safe in H. exact H. Qed.

(** Strings objects *)
Lemma count_tokens_safe : forall fuel s n, (List.length s < fuel)%nat -> safe (fun _ => True) (count_tokens fuel s n).
Proof.
  induction fuel as [|k IH]; intros s n H; [lia|]. cbn [count_tokens]. destruct (span is_tok s) as [t r] eqn:E.
  apply span_rest in E. destruct r as [|c r]; [exact I|]. destruct (_ || _); [exact I|]. apply IH. subst. rewrite app_length in H. cbn in H. lia.
Qed.
Definition opt_rest (o : option str) (s : str) : Prop := match o with Some r => rest_of r s | None => True end.
Lemma read_tokens_safe : forall nb o s, opt_rest o s ->
  safe (fun x => List.length (fst x) = nb /\ opt_rest (snd x) s) (read_tokens nb o).
Proof.
  induction nb as [|k IH]; intros o s H; cbn [read_tokens]; [now split|]. destruct o as [o|]; [|exact I].
  destruct (span is_tok o) as [t r] eqn:E. eapply safe_bind; [apply buf_store_safe|]. intros t' ->.
  assert (Hr : rest_of r s). { eapply rest_trans; [|exact H]. apply span_rest in E. subst o. apply rest_app. }
  eapply safe_bind. apply (IH _ s).
  - destruct r as [|c r]; [exact I|]. destruct (ceqb c c_hash); [exact Hr|]. cbn. eapply rest_trans; [apply rest_cons|exact Hr].
  - intros [l e] [H1 H2]. apply safe_ok. cbn [fst snd List.length] in *. split; [lia|exact H2].
Qed.
Definition strings_got (o : option strings) : Prop := match o with Some s => exists x l, s = Some (x :: l) | None => True end.
Lemma strings_safe s : safe (fun x => strings_got (fst x) /\ opt_rest (snd x) s) (osl_strings_sread s).
Proof.
  unfold osl_strings_sread. eapply safe_bind; [apply skip_safe|]. intros s1 H1.
  eapply safe_bind; [apply count_tokens_safe; lia|]. intros nb _. destruct (Z.ltb_spec 0 nb); [|now split].
  eapply safe_bind; [apply (read_tokens_safe _ _ s); exact H1|]. intros [l e] [Hl He]. apply safe_ok. cbn [fst snd] in *.
  split; [|exact He]. destruct l as [|x l]; [cbn in Hl; lia|]. now exists x, l.
Qed.

(** ** Files *)
Definition frest (g f : file) : Prop := rest_of (ftext g) (ftext f).
Lemma frest_refl f : frest f f.
Proof. apply rest_refl. Qed.
Lemma frest_trans a b c : frest a b -> frest b c -> frest a c.
Proof. apply rest_trans. Qed.
Lemma fgets_loop_split : forall n s l r e, fgets_loop n s = (l, r, e) -> s = l ++ r.
Proof.
  induction n as [|n IH]; intros s l r e H; cbn [fgets_loop] in H; [inversion H; reflexivity|].
  destruct s as [|c s]; [inversion H; reflexivity|]. destruct (ceqb c c_nl); [inversion H; reflexivity|].
  destruct (fgets_loop n s) as [[l1 r1] e1] eqn:E. apply IH in E. inversion H; subst. reflexivity.
Qed.
Lemma fgets_safe f o f' : fgets f = (o, f') -> frest f' f /\ (o <> None -> (List.length (ftext f') < List.length (ftext f))%nat).
Proof.
  unfold fgets. destruct (fgets_loop 2047 (ftext f)) as [[l r] e] eqn:E. apply fgets_loop_split in E. unfold frest.
  destruct l as [|c l]; intros H; inversion H; subst; cbn [ftext]; rewrite E.
  - split; [apply rest_refl|congruence].
  - split; [apply rest_app|]. intros _. rewrite app_length. cbn. lia.
Qed.
Lemma skip_lines_safe : forall fuel f, (List.length (ftext f) < fuel)%nat ->
  safe (fun x => frest (snd x) f /\ (fst x <> None -> (List.length (ftext (snd x)) < List.length (ftext f))%nat)) (skip_lines fuel f).
Proof.
  induction fuel as [|k IH]; intros f H; [lia|]. cbn [skip_lines]. destruct (fgets f) as [o f'] eqn:E.
  apply fgets_safe in E. destruct E as [H1 H2]. destruct o as [l|]; [|now split]. specialize (H2 ltac:(discriminate)).
  destruct (snd (span is_blank l)) as [|c start].
  - split; [exact H1|]. now intros _.
  - destruct (_ || _).
    + eapply safe_mono; [apply IH; lia|]. intros [o g] [G1 G2]. cbn [fst snd] in *. split; [eapply frest_trans; eassumption|].
      intros X. specialize (G2 X). lia.
    + split; [exact H1|]. now intros _.
Qed.
Lemma fskip_safe f : safe (fun x => frest (snd x) f /\ (fst x <> None -> (List.length (ftext (snd x)) < List.length (ftext f))%nat))
  (osl_util_skip_blank_and_comments f).
Proof. apply skip_lines_safe. lia. Qed.
Lemma fread_int_safe f : safe (fun x => c_int (fst x) /\ frest (snd x) f) (osl_util_read_int_f f).
Proof.
  unfold osl_util_read_int_f. eapply safe_bind; [apply fskip_safe|]. intros [[l|] f'] [H _]; [|exact I].
  eapply safe_bind; [apply scan_int_safe|]. intros v [Hv _]. now apply safe_ok.
Qed.
Lemma fread_string_safe f : safe (fun x => frest (snd x) f) (osl_util_read_string_f f).
Proof.
  unfold osl_util_read_string_f. eapply safe_bind; [apply fskip_safe|]. intros [[l|] f'] [H _]; [|exact I].
  eapply safe_bind; [apply scan_str_safe|]. intros v _. now apply safe_ok.
Qed.
Lemma fread_line_safe f : safe (fun x => frest (snd x) f) (osl_util_read_line_f f).
Proof.
  unfold osl_util_read_line_f. eapply safe_bind; [apply fskip_safe|]. intros [[l|] f'] [H _]; [|exact I].
  eapply safe_bind; [apply buf_store_safe|]. intros v _. now apply safe_ok.
Qed.
Lemma fread_tag_safe f : safe (fun x => frest (snd x) f) (osl_util_read_tag_f f).
Proof.
  unfold osl_util_read_tag_f. eapply safe_bind; [apply fskip_safe|]. intros [o f'] [H _]. cbn [fst snd] in H.
  destruct (feof f'); [exact H|]. destruct o as [[|c l]|]; [exact H| |exact I].
  eapply safe_bind; [apply read_tag_at_safe|]. intros [n r] _. exact H.
Qed.
Lemma fgetc_safe f c f' : fgetc f = (c, f') -> frest f' f /\
  ((List.length (ftext f') < List.length (ftext f))%nat \/ feof f' = true /\ c = chr 255 /\ ftext f' = ftext f).
Proof.
  unfold fgetc, frest. destruct (ftext f) as [|d s] eqn:E; intros H; inversion H; subst; cbn [ftext feof].
  - split; [apply rest_nil|]. right. auto.
  - split; [apply rest_cons|]. left. cbn. lia.
Qed.
Lemma starts_with_eq : forall a b, List.length a = List.length b -> starts_with a b = true -> a = b.
Proof.
  induction a as [|x a IH]; intros [|y b] Hl H; cbn in *; try reflexivity; try discriminate.
  apply andb_true_iff in H. destruct H as [H1 H2]. apply Ascii.eqb_eq in H1. f_equal; [exact H1|]. apply IH; [lia|exact H2].
Qed.
Lemma flag_last x d acc c : flag_here (x ++ [d]) (acc ++ [c]) = true -> c = d.
Proof.
  unfold flag_here. intros H. apply andb_true_iff in H. destruct H as [H1 H2]. apply Nat.leb_le in H1.
  apply starts_with_eq in H2; [|rewrite skipn_length; lia]. rewrite !app_length in *. cbn [List.length] in *.
  rewrite skipn_app in H2. replace (List.length acc + 1 - (List.length x + 1) - List.length acc)%nat with 0%nat in H2 by lia.
  cbn [skipn] in H2. apply app_inj_tail in H2. now destruct H2.
Qed.
Definition fuel_of (f : file) : nat := (List.length (ftext f) + if feof f then 0 else 1)%nat.
Lemma uptoflag_file_safe x d : d <> chr 255 -> forall fuel acc f, (fuel_of f < fuel)%nat ->
  safe (fun y => frest (snd y) f /\
                 (fst y <> None -> (List.length (ftext (snd y)) < List.length (ftext f))%nat))
    (uptoflag_file fuel (x ++ [d]) acc f).
Proof.
  intros Hd. induction fuel as [|k IH]; intros acc f H; [lia|]. cbn [uptoflag_file].
  destruct (feof f) eqn:Ef; [split; [apply frest_refl|easy]|]. destruct (fgetc f) as [c f'] eqn:Ec.
  apply fgetc_safe in Ec. destruct Ec as [H1 H2]. destruct (flag_here (x ++ [d]) (acc ++ [c])) eqn:Eh.
  - apply flag_last in Eh. subst c. split; [exact H1|]. intros _. destruct H2 as [H2|(_ & E & _)]; [exact H2|now elim Hd].
  - eapply safe_mono; [apply IH|].
    + unfold fuel_of in *. rewrite Ef in H. destruct H2 as [H2|(E & _ & E2)]; [destruct (feof f'); lia|]. rewrite E, E2. lia.
    + intros [o g] [G1 G2]. cbn [fst snd] in *. split; [eapply frest_trans; eassumption|]. intros X. specialize (G2 X).
      apply rest_le in H1. lia.
Qed.
Lemma gt_not_eof : c_gt <> chr 255.
Proof. intros H. apply (f_equal nat_of_ascii) in H. vm_compute in H. discriminate. Qed.
Lemma fuptotag_safe f name : safe (fun y => frest (snd y) f /\
    (fst y <> None -> (List.length (ftext (snd y)) < List.length (ftext f))%nat)) (osl_util_read_uptotag_f f name).
Proof.
  unfold osl_util_read_uptotag_f, osl_util_read_uptoflag_f, tag_of.
  change (c_lt :: name ++ [c_gt]) with ((c_lt :: name) ++ [c_gt]). apply uptoflag_file_safe; [exact gt_not_eof|].
  unfold fuel_of. destruct (feof f); lia.
Qed.
Lemma fuptoendtag_safe f name : safe (fun y => frest (snd y) f /\
    (fst y <> None -> (List.length (ftext (snd y)) < List.length (ftext f))%nat)) (osl_util_read_uptoendtag_f f name).
Proof.
  unfold osl_util_read_uptoendtag_f, osl_util_read_uptoflag_f, endtag_of.
  change (c_lt :: c_slash :: name ++ [c_gt]) with ((c_lt :: c_slash :: name) ++ [c_gt]). apply uptoflag_file_safe; [exact gt_not_eof|].
  unfold fuel_of. destruct (feof f); lia.
Qed.
Lemma fstrings_safe f : safe (fun x => strings_got (fst x) /\ frest (snd x) f) (osl_strings_read f).
Proof.
  unfold osl_strings_read. eapply safe_bind; [apply fskip_safe|]. intros [[l|] f'] [H _]; [|exact I].
  eapply safe_bind; [apply strings_safe|]. intros [r e] [Hr _]. apply safe_ok. now split.
Qed.
