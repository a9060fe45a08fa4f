(** * UtilProofs3: identifier substitution *)
From Verif Require Import Base IntModel UtilModel TextSpec TextInt UtilProofs UtilProofs2.

Lemma one_of_spec l c : one_of l c = true <-> In c (lit l).
Proof.
  unfold one_of. rewrite existsb_exists. split.
  - intros (x & H & E). apply ceqb_eq in E. now subst.
  - intros H. exists c. split; [assumption|apply ceqb_refl].
Qed.

Lemma all_ascii (P : ascii -> bool) : forallb P (map chr (seq 0 256)) = true -> forall c, P c = true.
Proof.
  intros H c. rewrite forallb_forall in H. apply H. apply in_map_iff.
  exists (nat_of_ascii c). split; [apply ascii_nat_embedding|]. apply in_seq.
  pose proof (nat_ascii_bounded c). lia.
Qed.

Lemma is_word_spec c : is_word c = true <-> ident_char c.
Proof.
  unfold ident_char. rewrite <- one_of_spec.
  assert (H : forall c, Bool.eqb (is_word c) (one_of "ABCDEFGHIJKLMNOPQRSTUVWXYZabcdefghijklmnopqrstuvwxyz0123456789_" c) = true).
  { apply all_ascii. vm_compute. reflexivity. }
  specialize (H c). apply eqb_prop in H. rewrite H. tauto.
Qed.

Lemma app_eq_length {A} (a b c d : list A) : a ++ b = c ++ d -> List.length a = List.length c -> a = c /\ b = d.
Proof.
  intros E Hl. destruct (app_le_split _ _ _ _ E) as (m & -> & ->); [lia|].
  rewrite app_length in Hl. destruct m; [|cbn in Hl; lia]. now rewrite app_nil_r.
Qed.

Lemma word_before b x : Nat.ltb 0 (List.length b) && word_at (b ++ x) (List.length b - 1) = true <-> ends_in_word b.
Proof.
  destruct b as [|c b] using rev_ind.
  - cbn. split; [discriminate|]. intros (a & c & H & _). destruct a; discriminate.
  - rewrite app_length. cbn [List.length]. replace (List.length b + 1 - 1)%nat with (List.length b) by lia.
    unfold word_at. rewrite <- app_assoc, nth_error_app2, Nat.sub_diag by lia. cbn [nth_error app].
    replace (Nat.ltb 0 (List.length b + 1)) with true by (symmetry; apply Nat.ltb_lt; lia). cbn [andb].
    rewrite is_word_spec. split.
    + intros H. now exists b, c.
    + intros (a & d & E & H). apply app_inj_tail in E as [_ ->]. assumption.
Qed.
Lemma word_after x a k n : k = List.length x -> n = List.length (x ++ a) ->
  Nat.ltb k n && word_at (x ++ a) k = true <-> starts_in_word a.
Proof.
  intros -> ->. unfold word_at. rewrite nth_error_app2, Nat.sub_diag, app_length by lia.
  destruct a as [|c a]; cbn [nth_error app List.length].
  - rewrite andb_false_r. split; [discriminate|]. intros (c & b & H & _). discriminate.
  - replace (Nat.ltb (List.length x) (List.length x + S (List.length a))) with true by (symmetry; apply Nat.ltb_lt; lia).
    cbn [andb]. rewrite is_word_spec. split.
    + intros H. now exists c, a.
    + intros (d & b & E & H). injection E as -> _. assumption.
Qed.

Lemma is_here_spec e d i : osl_util_identifier_is_here e d i = true <->
  exists b a, e = b ++ d ++ a /\ List.length b = i /\ ~ ends_in_word b /\ ~ starts_in_word a.
Proof.
  unfold osl_util_identifier_is_here. split.
  - destruct (Nat.ltb_spec (List.length e) (List.length d + i)); [discriminate|].
    intros H'.
    assert (Hsw : exists r, skipn i e = d ++ r).
    { destruct (_ && _) in H'; [discriminate|]. destruct (_ && _) in H'; [discriminate|]. now apply starts_with_spec. }
    destruct Hsw as [a Ha]. exists (firstn i e), a.
    assert (He : e = firstn i e ++ d ++ a) by (rewrite <- Ha; symmetry; apply firstn_skipn).
    assert (Hi : List.length (firstn i e) = i) by (apply firstn_length_le; lia).
    split; [assumption|]. split; [assumption|].
    set (b := firstn i e) in *. clearbody b. subst e.
    pose proof (word_before b (d ++ a)) as Hb. rewrite Hi in Hb.
    pose proof (word_after (b ++ d) a (List.length d + i) (List.length (b ++ d ++ a))) as Hw.
    rewrite <- app_assoc in Hw. specialize (Hw ltac:(rewrite app_length; lia) eq_refl).
    split; intros Hx.
    + apply Hb in Hx. rewrite Hx in H'. discriminate.
    + apply Hw in Hx. rewrite Hx in H'. destruct (_ && word_at _ (i - 1)) in H'; discriminate.
  - intros (b & a & -> & <- & Hb & Ha).
    rewrite !app_length.
    destruct (Nat.ltb_spec (List.length b + (List.length d + List.length a)) (List.length d + List.length b)); [lia|].
    pose proof (word_before b (d ++ a)) as Hwb.
    pose proof (word_after (b ++ d) a (List.length d + List.length b) (List.length b + (List.length d + List.length a))) as Hw.
    rewrite <- app_assoc in Hw. specialize (Hw ltac:(rewrite app_length; lia) ltac:(rewrite !app_length; lia)).
    destruct (Nat.ltb 0 (List.length b) && word_at (b ++ d ++ a) (List.length b - 1)); [exfalso; apply Hb, Hwb; reflexivity|].
    destruct (Nat.ltb (List.length d + List.length b) _ && word_at _ _); [exfalso; apply Ha, Hw; reflexivity|].
    rewrite skipn_app_exact. apply starts_with_spec. now exists a.
Qed.

(** Unique surroundings of a position. *)
Lemma here_at b d a : osl_util_identifier_is_here (b ++ d ++ a) d (List.length b) = true <->
  ~ ends_in_word b /\ ~ starts_in_word a.
Proof.
  rewrite is_here_spec. split.
  - intros (b' & a' & E & Hl & H1 & H2). apply app_eq_length in E as [-> E]; [|auto].
    apply app_inv_head in E. subst. auto.
  - intros [H1 H2]. now exists b, a.
Qed.

Lemma look_back_spec x : forall b,
  match look_back (b ++ x) (List.length b) with
  | None => all_space b
  | Some c => is_space c = false /\ exists a s, b = a ++ c :: s /\ all_space s
  end.
Proof.
  induction b as [|c b IH] using rev_ind; [constructor|].
  rewrite app_length, Nat.add_1_r. cbn [look_back].
  rewrite <- app_assoc, nth_error_app2, Nat.sub_diag by lia. cbn [app nth_error].
  destruct (is_space c) eqn:E.
  - replace (look_back (b ++ c :: x) (List.length b)) with (look_back (b ++ x) (List.length b)).
    + destruct (look_back (b ++ x) (List.length b)).
      * destruct IH as (H & y & s & -> & Hs). split; [assumption|]. exists y, (s ++ [c]).
        split; [now rewrite <- app_assoc|]. apply Forall_app. split; [assumption|]. constructor; [assumption|constructor].
      * apply Forall_app. split; [assumption|]. constructor; [assumption|constructor].
    + assert (Hk : forall k, (k <= List.length b)%nat -> look_back (b ++ x) k = look_back (b ++ c :: x) k).
      { induction k as [|k IHk]; intros Hk; [reflexivity|]. cbn [look_back].
        rewrite !nth_error_app1 by lia. rewrite IHk by lia. reflexivity. }
      apply Hk. lia.
  - split; [assumption|]. exists b, []. split; [reflexivity|constructor].
Qed.
Lemma last_visible_unique a c s a' c' s' : a ++ c :: s = a' ++ c' :: s' -> all_space s -> all_space s' ->
  is_space c = false -> is_space c' = false -> c = c'.
Proof.
  revert a'. induction a as [|x a IH]; intros [|y a'] E Hs Hs' Hc Hc'; cbn in E.
  - congruence.
  - injection E as -> ->. exfalso. apply Forall_app in Hs as [_ Hs]. inversion Hs; subst. congruence.
  - injection E as <- <-. exfalso. apply Forall_app in Hs' as [_ Hs']. inversion Hs'; subst. congruence.
  - injection E as _ E. eapply IH; eauto.
Qed.
Lemma back_isolated b x l :
  match look_back (b ++ x) (List.length b) with Some c => one_of l c | None => true end = true <->
  last_visible_in l b.
Proof.
  pose proof (look_back_spec x b) as H. unfold last_visible_in.
  destruct (look_back (b ++ x) (List.length b)) as [c|].
  - destruct H as (Hc & a & s & -> & Hs). rewrite one_of_spec. split.
    + intros Hin. right. now exists a, c, s.
    + intros [Ha|(a' & c' & s' & E & Hs' & Hc' & Hin)].
      * apply Forall_app in Ha as [_ Ha]. inversion Ha; subst. congruence.
      * rewrite (last_visible_unique _ _ _ _ _ _ E Hs Hs' Hc Hc'). assumption.
  - split; [now left|reflexivity].
Qed.

Lemma skip_spaces_split s : exists p, s = p ++ skip_spaces s /\ all_space p /\
  match skip_spaces s with [] => True | c :: _ => is_space c = false end.
Proof.
  induction s as [|c s IH]; [exists []; repeat split; constructor|]. cbn. destruct (is_space c) eqn:E.
  - destruct IH as (p & Hs & Hp & Hh). exists (c :: p). split; [cbn; congruence|]. split; [constructor; assumption|assumption].
  - exists []. split; [reflexivity|]. split; [constructor|assumption].
Qed.
Lemma fwd_isolated a l :
  match look_fwd a with Some c => one_of l c | None => true end = true <-> first_visible_in l a.
Proof.
  unfold look_fwd, first_visible_in. destruct (skip_spaces_split a) as (p & Ha & Hp & Hh).
  destruct (skip_spaces a) as [|c r].
  - rewrite app_nil_r in Ha. subst. split; [now left|reflexivity].
  - rewrite one_of_spec. split.
    + intros Hin. right. now exists p, c, r.
    + intros [H|(p' & c' & r' & E & Hp' & Hc' & Hin)].
      * rewrite Ha in H. apply Forall_app in H as [_ H]. inversion H; subst. congruence.
      * replace c with c'; [assumption|]. rewrite E in Ha. clear E Hin l. revert p Ha Hp. induction p' as [|x p' IH]; intros [|y p] Ha Hp; cbn in Ha.
        { congruence. }
        { injection Ha as -> _. inversion Hp; subst. congruence. }
        { injection Ha as -> _. inversion Hp'; subst. congruence. }
        { injection Ha as _ Ha. inversion Hp; inversion Hp'; subst. eapply IH; eauto. }
Qed.
Lemma isolated_spec b d a : osl_util_lazy_isolated_identifier (b ++ d ++ a) d (List.length b) = true <-> isolated b a.
Proof.
  unfold osl_util_lazy_isolated_identifier, isolated.
  rewrite <- app_length. rewrite (app_assoc b d a) at 2. rewrite skipn_app_exact.
  rewrite andb_true_iff, back_isolated, fwd_isolated. tauto.
Qed.

Lemma find_identifier_spec e i : forall ids j0,
  match find_identifier e i j0 ids with
  | Some (j, d) => exists k, j = j0 + Z.of_nat k /\ nth_error ids k = Some d /\
      osl_util_identifier_is_here e d i = true /\ (forall k', (k' < k)%nat -> nth_error ids k' <> Some d)
  | None => forall d, In d ids -> osl_util_identifier_is_here e d i = false
  end.
Proof.
  induction ids as [|x ids IH]; intros j0; cbn [find_identifier]; [intros d []|].
  destruct (osl_util_identifier_is_here e x i) eqn:E.
  - exists 0%nat. split; [lia|]. split; [reflexivity|]. split; [assumption|]. intros k' Hk. lia.
  - specialize (IH (j0 + 1)). destruct (find_identifier e i (j0 + 1) ids) as [[j d]|].
    + destruct IH as (k & -> & H1 & H2 & H3). exists (S k). split; [lia|]. split; [assumption|]. split; [assumption|].
      intros [|k'] Hk; cbn; [congruence|]. apply H3. lia.
    + intros d [<-|Hd]; auto.
Qed.

Definition showj (j : nat) : str := print_Z (Z.of_nat j).

(** The pieces produced from position [i = length b]. *)
Definition good_pieces (ids : list str) (b : str) (pieces : list (str * str)) : Prop :=
  forall l o r l', pieces = l ++ (o, r) :: l' ->
    let before := b ++ concat (map fst l) in let after := concat (map fst l') in
    substituted showj ids before o after r \/ (r = o /\ List.length o = 1%nat).
Definition complete_pieces (ids : list str) (b : str) (pieces : list (str * str)) : Prop :=
  forall b' w a, b ++ concat (map fst pieces) = b' ++ w ++ a -> (List.length b <= List.length b')%nat ->
    In w ids -> ~ ends_in_word b' -> ~ starts_in_word a ->
    exists l r l', pieces = l ++ (w, r) :: l' /\ b ++ concat (map fst l) = b' /\
                   substituted showj ids b' w a r.

Lemma word_prefix_ends b d m1 m2 : d = m1 ++ m2 -> m1 <> [] -> word d -> ends_in_word (b ++ m1).
Proof.
  intros -> Hm [_ Hw]. apply Forall_app in Hw as [Hw _].
  destruct (exists_last Hm) as (m & c & ->). exists (b ++ m), c. split; [now rewrite app_assoc|].
  apply Forall_app in Hw as [_ Hw]. now inversion Hw.
Qed.

(** Two maximal words at the same place are equal. *)
Lemma words_same_start d w a a' : word d -> word w -> d ++ a = w ++ a' ->
  ~ starts_in_word a -> ~ starts_in_word a' -> d = w /\ a = a'.
Proof.
  assert (X : forall d w a a', word w -> d ++ a = w ++ a' -> (List.length d <= List.length w)%nat ->
              ~ starts_in_word a -> d = w /\ a = a').
  { intros d0 w0 a0 a0' [Hn Hw] E Hl Ha. destruct (app_le_split _ _ _ _ E Hl) as (m & -> & ->).
    destruct m as [|c m]; [now rewrite app_nil_r|]. exfalso. apply Ha. exists c, (m ++ a0').
    split; [reflexivity|]. apply Forall_app in Hw as [_ Hw]. now inversion Hw. }
  intros Hd Hw E Ha Ha'. destruct (Nat.le_ge_cases (List.length d) (List.length w)).
  - apply X; auto.
  - destruct (X w d a' a) as [-> ->]; auto.
Qed.

Lemma subst_loop_ok ids : Forall word ids -> forall fuel b s out, (List.length s < fuel)%nat ->
  exists pieces : list (str * str), subst_loop fuel (b ++ s) ids (List.length b) out = Ok (out ++ concat (map snd pieces)) /\
    s = concat (map fst pieces) /\ good_pieces ids b pieces /\ complete_pieces ids b pieces.
Proof.
  intros Hids. induction fuel as [|k IH]; intros b s out Hf; [lia|]. cbn [subst_loop].
  destruct (Nat.ltb_spec (List.length b) (List.length (b ++ s))) as [Hlt|Hge].
  - pose proof (find_identifier_spec (b ++ s) (List.length b) ids 0) as HF.
    destruct (find_identifier (b ++ s) (List.length b) 0 ids) as [[j d]|].
    + destruct HF as (kk & -> & Hn & Hh & Hfirst). rewrite Z.add_0_l.
      pose proof Hh as Hh2. apply is_here_spec in Hh2 as (b' & a & E & Hl & Hb & Ha).
      apply app_eq_length in E as [<- ->]; [|auto]. clear Hl.
      assert (Hd : word d) by (rewrite Forall_forall in Hids; apply Hids; eapply nth_error_In; eauto).
      destruct (IH (b ++ d) a (out ++ placeholder (Z.of_nat kk) (osl_util_lazy_isolated_identifier (b ++ d ++ a) d (List.length b))))
        as (pieces & H1 & H2 & H3 & H4).
      { rewrite app_length in Hf. destruct Hd as [Hd _]. destruct d; [congruence|]. cbn in Hf. lia. }
      rewrite app_length, <- app_assoc in H1. rewrite H1.
      exists ((d, placeholder (Z.of_nat kk) (osl_util_lazy_isolated_identifier (b ++ d ++ a) d (List.length b))) :: pieces).
      assert (Hsub : substituted showj ids b d a (placeholder (Z.of_nat kk) (osl_util_lazy_isolated_identifier (b ++ d ++ a) d (List.length b)))).
      { exists kk. split; [split; assumption|]. split; [assumption|]. split; [assumption|].
        pose proof (isolated_spec b d a) as Hi.
        destruct (osl_util_lazy_isolated_identifier (b ++ d ++ a) d (List.length b)).
        - left. split; [tauto|reflexivity].
        - right. split; [intros X; apply Hi in X; discriminate|]. unfold placeholder. cbn. reflexivity. }
      split; [cbn [map snd concat]; now rewrite <- app_assoc|].
      split; [cbn [map fst concat]; now rewrite <- H2|]. split.
      * intros l o r l' E. destruct l as [|q l]; cbn [app] in E; cbv zeta.
        { injection E as <- <- <-. left. cbn [map concat]. rewrite app_nil_r. subst a. exact Hsub. }
        injection E as <- E. specialize (H3 _ _ _ _ E). cbv zeta in H3. cbn [map fst concat]. rewrite app_assoc. exact H3.
      * intros b' w a' E Hl Hin Hb' Ha'. cbn [map fst concat] in E. rewrite <- H2 in E.
        assert (Hw : word w) by (rewrite Forall_forall in Hids; apply Hids; assumption).
        destruct (app_le_split _ _ _ _ E Hl) as (m & -> & E2).
        destruct m as [|c m].
        { cbn in E2. destruct (words_same_start d w a a') as [<- <-]; auto.
          exists [], (placeholder (Z.of_nat kk) (osl_util_lazy_isolated_identifier (b ++ d ++ a) d (List.length b))), pieces.
          cbn [map concat]. rewrite app_nil_r. repeat split; auto. }
        destruct (Nat.lt_ge_cases (List.length (c :: m)) (List.length d)) as [Hlt2|Hge2].
        { exfalso. symmetry in E2. destruct (app_le_split _ _ _ _ E2) as (m2 & Hm2 & _); [lia|].
          apply Hb'. eapply word_prefix_ends; [exact Hm2|discriminate|assumption]. }
        destruct (app_le_split _ _ _ _ E2 Hge2) as (m2 & Hm2 & E3).
        destruct (H4 (b ++ c :: m) w a') as (l & r & l' & Hl1 & Hl2 & Hl3); auto.
        { rewrite <- app_assoc, <- H2. rewrite <- app_assoc. f_equal. exact E2. }
        { rewrite !app_length. lia. }
        exists ((d, placeholder (Z.of_nat kk) (osl_util_lazy_isolated_identifier (b ++ d ++ a) d (List.length b))) :: l), r, l'.
        split; [cbn; now rewrite Hl1|]. split; [cbn [map fst concat]; now rewrite app_assoc|assumption].
    + destruct s as [|c s]; [rewrite app_nil_r in Hlt; lia|].
      rewrite nth_error_app2, Nat.sub_diag by lia. cbn [nth_error].
      destruct (IH (b ++ [c]) s (out ++ [c])) as (pieces & H1 & H2 & H3 & H4); [cbn in Hf; lia|].
      rewrite app_length, <- app_assoc in H1. cbn [app List.length] in H1. rewrite H1.
      exists (([c], [c]) :: pieces). split; [cbn [map snd concat]; now rewrite <- app_assoc|].
      split; [cbn [map fst concat app]; now rewrite <- H2|]. split.
      * intros l o r l' E. destruct l as [|q l]; cbn [app] in E; cbv zeta.
        { injection E as <- <- <-. right. split; reflexivity. }
        injection E as <- E. specialize (H3 _ _ _ _ E). cbv zeta in H3. cbn [map fst concat]. rewrite app_assoc. exact H3.
      * intros b' w a' E Hl Hin Hb' Ha'. cbn [map fst concat] in E. rewrite <- H2 in E.
        destruct (app_le_split _ _ _ _ E Hl) as (m & -> & E2).
        destruct m as [|x m].
        { exfalso. rewrite app_nil_r in *. specialize (HF w Hin).
          assert (osl_util_identifier_is_here (b ++ c :: s) w (List.length b) = true); [|congruence].
          cbn [app] in E2. rewrite E2. apply here_at. auto. }
        cbn [app] in E2. injection E2 as -> E2.
        destruct (H4 (b ++ x :: m) w a') as (l & r & l' & Hl1 & Hl2 & Hl3); auto.
        { rewrite <- H2, <- !app_assoc. cbn. now rewrite E2. }
        { rewrite !app_length. cbn. lia. }
        exists (([x], [x]) :: l), r, l'.
        split; [cbn; now rewrite Hl1|]. split; [cbn [map fst concat]; now rewrite app_assoc|assumption].
  - assert (s = []) by (destruct s; [reflexivity|rewrite app_length in Hge; cbn in Hge; lia]). subst s.
    exists []. cbn. rewrite app_nil_r. split; [reflexivity|]. split; [reflexivity|]. split.
    + intros [|] ? ? ? E; discriminate.
    + intros b' w a E Hl Hin Hb' Ha. cbn in E. exfalso.
      assert (Hw : word w) by (rewrite Forall_forall in Hids; apply Hids; assumption).
      destruct Hw as [Hw _]. apply (f_equal (@List.length _)) in E. rewrite !app_length in E. cbn in E.
      destruct w; [congruence|cbn in E; lia].
Qed.

Lemma substitution_ok e ids : Forall word ids ->
  exists pieces : list (str * str), osl_util_identifier_substitution e ids = Ok (concat (map snd pieces)) /\
    e = concat (map fst pieces) /\ good_pieces ids [] pieces /\ complete_pieces ids [] pieces.
Proof.
  intros H. destruct (subst_loop_ok ids H (S (List.length e)) [] e [] ltac:(lia)) as (p & H1 & H2 & H3 & H4).
  exists p. auto.
Qed.
