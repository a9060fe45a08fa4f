(** * UtilProofs: lemmas about the text layer *)
From Verif Require Import Base IntModel UtilModel TextSpec TextInt.

Lemma ceqb_eq a b : ceqb a b = true <-> a = b.
Proof. apply Ascii.eqb_eq. Qed.
Lemma ceqb_neq a b : ceqb a b = false <-> a <> b.
Proof. apply Ascii.eqb_neq. Qed.
Lemma ceqb_refl a : ceqb a a = true.
Proof. apply Ascii.eqb_refl. Qed.

(** ** span *)
Definition head_not (p : ascii -> bool) (s : str) : Prop :=
  match s with [] => True | c :: _ => p c = false end.

Lemma span_split p s : s = fst (span p s) ++ snd (span p s).
Proof.
  induction s as [|c s IH]; [reflexivity|]. cbn [span]. destruct (p c); [|reflexivity].
  destruct (span p s) as [a b]. cbn in *. now rewrite <- IH.
Qed.
Lemma span_fst p s : Forall (fun c => p c = true) (fst (span p s)).
Proof.
  induction s as [|c s IH]; [constructor|]. cbn [span]. destruct (p c) eqn:E; [|constructor].
  destruct (span p s) as [a b]. cbn in *. constructor; assumption.
Qed.
Lemma span_snd p s : head_not p (snd (span p s)).
Proof.
  induction s as [|c s IH]; [exact I|]. cbn [span]. destruct (p c) eqn:E; [|exact E].
  destruct (span p s) as [a b]. exact IH.
Qed.
Lemma span_exact p a b : Forall (fun c => p c = true) a -> head_not p b -> span p (a ++ b) = (a, b).
Proof.
  induction a as [|c a IH]; intros Ha Hb.
  - cbn. destruct b as [|c b]; [reflexivity|]. cbn in *. now rewrite Hb.
  - inversion Ha; subst. cbn. rewrite H1, (IH H2 Hb). reflexivity.
Qed.
Lemma span_nohead p s : head_not p s -> span p s = ([], s).
Proof. intros H. exact (span_exact p [] s (Forall_nil _) H). Qed.
Lemma span_all p s : Forall (fun c => p c = true) s -> span p s = (s, []).
Proof. intros H. rewrite <- (app_nil_r s) at 1. apply span_exact; [assumption|exact I]. Qed.
Lemma span_skip p a b : Forall (fun c => p c = true) a -> snd (span p (a ++ b)) = snd (span p b).
Proof.
  induction a as [|c a IH]; intros Ha; [reflexivity|]. inversion Ha; subst. cbn. rewrite H1.
  destruct (span p (a ++ b)) eqn:E. cbn. rewrite <- IH by assumption. reflexivity.
Qed.

(** ** sskip *)
Definition sskip1 (s : str) : str :=
  let s1 := snd (span is_space s) in
  match s1 with
  | c :: _ => if ceqb c c_hash then snd (span (fun c => negb (ceqb c c_nl)) s1) else s1
  | [] => s1
  end.
Lemma sskip_loop_S k s : sskip_loop (S k) s =
  match sskip1 s with c :: _ => if ceqb c c_nl then sskip_loop k (sskip1 s) else Ok (sskip1 s)
                    | [] => Ok (sskip1 s) end.
Proof. reflexivity. Qed.

Lemma not_nl_all w : Forall (fun c => negb (ceqb c c_nl) = true) w <-> no_nl w.
Proof.
  unfold no_nl. split.
  - intros H Hin. rewrite Forall_forall in H. specialize (H _ Hin). rewrite ceqb_refl in H. discriminate.
  - intros H. apply Forall_forall. intros c Hc. apply negb_true_iff, ceqb_neq. intros ->. auto.
Qed.

Lemma blank_text_app p q : blank_text p -> blank_text q -> blank_text (p ++ q).
Proof.
  induction 1; intros Hq; cbn; [assumption|constructor; auto|].
  rewrite <- app_assoc. cbn. apply bt_comment; auto.
Qed.
Lemma blank_text_spaces p : all_space p -> blank_text p.
Proof. induction 1; [apply bt_nil|apply bt_space; auto]. Qed.

Lemma sskip1_spec s : exists p, s = p ++ sskip1 s /\
  match sskip1 s with
  | [] => skippable p []
  | c :: _ => (c = c_nl /\ exists q w, p = q ++ c_hash :: w /\ all_space q /\ no_nl w)
              \/ (is_space c = false /\ c <> c_hash /\ all_space p)
  end.
Proof.
  unfold sskip1. pose proof (span_split is_space s) as Hs. pose proof (span_fst is_space s) as Hf.
  pose proof (span_snd is_space s) as Hn.
  destruct (span is_space s) as [a b]. cbn [fst snd] in *. destruct b as [|c b].
  - exists a. split; [assumption|]. left. apply blank_text_spaces, Hf.
  - destruct (ceqb c c_hash) eqn:E.
    + apply ceqb_eq in E. subst c.
      set (q := fun c => negb (ceqb c c_nl)).
      pose proof (span_split q (c_hash :: b)) as H1. pose proof (span_fst q (c_hash :: b)) as H2.
      pose proof (span_snd q (c_hash :: b)) as H3.
      assert (Hh : exists w, fst (span q (c_hash :: b)) = c_hash :: w /\ no_nl w).
      { cbn [span]. change (q c_hash) with true. cbn iota. cbn [span] in H2. change (q c_hash) with true in H2. cbn iota in H2.
        destruct (span q b) as [w r]. cbn [fst] in *. exists w. split; [reflexivity|].
        inversion H2; subst. apply not_nl_all. assumption. }
      destruct Hh as (w & Hw & Hnl). destruct (span q (c_hash :: b)) as [x y]. cbn [fst snd] in *. subst x.
      exists (a ++ c_hash :: w). split; [rewrite Hs at 1; rewrite H1, <- app_assoc; reflexivity|].
      destruct y as [|d y].
      * right. split; [reflexivity|]. exists a, w. split; [reflexivity|]. split; [apply blank_text_spaces, Hf|assumption].
      * left. cbn in H3. unfold q in H3. apply negb_false_iff, ceqb_eq in H3. split; [assumption|].
        exists a, w. auto.
    + exists a. split; [assumption|]. right. split; [exact Hn|]. split; [apply ceqb_neq, E|exact Hf].
Qed.

Lemma sskip_loop_ok fuel : forall s, (List.length s < fuel)%nat ->
  exists rest, sskip_loop fuel s = Ok rest /\ meaningful rest /\ exists p, s = p ++ rest /\ skippable p rest.
Proof.
  induction fuel as [|k IH]; intros s Hl; [lia|]. rewrite sskip_loop_S.
  destruct (sskip1_spec s) as (p & Hs & H). destruct (sskip1 s) as [|c b].
  - exists []. split; [reflexivity|]. split; [exact I|]. exists p. split; assumption.
  - destruct H as [(-> & q & w & -> & Hq & Hw)|(Hc & Hh & Hp)].
    + rewrite ceqb_refl.
      destruct (IH (c_nl :: b)) as (rest & H1 & H2 & p' & H3 & H4).
      { rewrite Hs, app_length in Hl. rewrite app_length in Hl. cbn in Hl |- *. lia. }
      exists rest. split; [assumption|]. split; [assumption|].
      destruct H4 as [H4|(-> & q' & w' & -> & Hq' & Hw')].
      * exists ((q ++ c_hash :: w) ++ p'). rewrite Hs, H3, <- (app_assoc _ p' rest). split; [reflexivity|].
        left. destruct p' as [|d p'].
        { cbn in H3. rewrite <- H3 in H2. cbn in H2. destruct H2; discriminate. }
        injection H3 as <- ->. rewrite <- app_assoc. apply blank_text_app; [apply blank_text_spaces, Hq|].
        cbn. apply bt_comment; [assumption|].
        change (c_nl :: p') with ([c_nl] ++ p') in H4. inversion H4; subst; assumption.
      * exists ((q ++ c_hash :: w) ++ (q' ++ c_hash :: w')). rewrite Hs. rewrite H3, !app_nil_r. split; [reflexivity|].
        right. split; [reflexivity|].
        exists ((q ++ c_hash :: w) ++ q'), w'. split; [now rewrite <- !app_assoc|]. split; [|assumption].
        rewrite app_nil_r in H3. destruct q' as [|d q'].
        { discriminate H3. }
        injection H3 as <- ->. rewrite <- app_assoc. apply blank_text_app; [apply blank_text_spaces, Hq|].
        cbn. apply bt_comment; [assumption|]. inversion Hq'; subst; assumption.
    + destruct (ceqb c c_nl) eqn:E; [apply ceqb_eq in E; subst; discriminate|].
      exists (c :: b). split; [reflexivity|]. split; [split; assumption|]. exists p. split; [assumption|].
      left. apply blank_text_spaces, Hp.
Qed.

Lemma sskip_ok s : exists rest, osl_util_sskip_blank_and_comments s = Ok rest /\ meaningful rest /\
  exists p, s = p ++ rest /\ skippable p rest.
Proof. apply sskip_loop_ok. lia. Qed.

(** The meaningful part is unique. *)
Lemma comment_split w w' p r : no_nl w -> no_nl w' -> w ++ c_nl :: p = w' ++ c_nl :: r -> w = w' /\ p = r.
Proof.
  revert w'. induction w as [|c w IH]; intros [|c' w'] H H' E; cbn in E.
  - injection E as ->. auto.
  - injection E as <- _. exfalso. apply H'. now left.
  - injection E as -> _. exfalso. apply H. now left.
  - injection E as -> E. destruct (IH w') as [-> ->]; auto; [intros ?; apply H; now right|intros ?; apply H'; now right].
Qed.
Lemma space_not_hash c : is_space c = true -> c <> c_hash.
Proof. intros H ->. discriminate. Qed.

Lemma meaningful_unique p : blank_text p -> forall rest p' rest', meaningful rest -> meaningful rest' ->
  skippable p' rest' -> p ++ rest = p' ++ rest' -> rest = rest'.
Proof.
  intros Hp. induction Hp as [|c p Hc Hp IH|w p Hw Hp IH]; intros rest p' rest' Hm Hm' Hs E.
  - destruct Hs as [Hs|(-> & q & w & -> & Hq & Hw)].
    + inversion Hs; subst; cbn in *; [assumption| |].
      * exfalso. subst rest. cbn in Hm. destruct Hm. congruence.
      * exfalso. subst rest. cbn in Hm. destruct Hm. congruence.
    + exfalso. cbn in E. subst rest. inversion Hq; subst; cbn in Hm; destruct Hm; congruence.
  - destruct Hs as [Hs|(-> & q & w & -> & Hq & Hw)].
    + inversion Hs; subst.
      * exfalso. cbn in E. subst rest'. destruct Hm'. congruence.
      * injection E as _ E. eapply IH; eauto. now left.
      * injection E as -> _. discriminate.
    + rewrite app_nil_r in E. inversion Hq; subst; cbn in E.
      * injection E as -> _. discriminate.
      * injection E as -> E. eapply (IH _ (p0 ++ c_hash :: w) []); eauto; [|rewrite app_nil_r; exact E].
        right. split; [reflexivity|]. exists p0, w. auto.
      * injection E as -> _. discriminate.
  - cbn in E. rewrite <- app_assoc in E. destruct Hs as [Hs|(-> & q & w' & -> & Hq & Hw')].
    + inversion Hs; subst.
      * exfalso. cbn in E. subst rest'. destruct Hm'. congruence.
      * injection E as <- _. discriminate.
      * cbn in E. rewrite <- app_assoc in E. injection E as E.
        apply comment_split in E as [-> E]; auto. eapply IH; eauto. now left.
    + rewrite app_nil_r in E. inversion Hq; subst; cbn in E.
      * injection E as E. exfalso. apply Hw'. rewrite <- E. apply in_or_app. right. now left.
      * injection E as <- _. discriminate.
      * rewrite <- app_assoc in E. injection E as E. apply comment_split in E as [-> E]; auto.
        eapply (IH _ (p0 ++ c_hash :: w') []); eauto; [|rewrite app_nil_r; exact E].
        right. split; [reflexivity|]. exists p0, w'. auto.
Qed.

Lemma skippable_unique s p rest p' rest' : s = p ++ rest -> s = p' ++ rest' ->
  skippable p rest -> skippable p' rest' -> meaningful rest -> meaningful rest' -> rest = rest'.
Proof.
  intros E E' Hs Hs' Hm Hm'. destruct Hs as [Hs|Hs]; [eapply meaningful_unique; eauto; congruence|].
  destruct Hs' as [Hs'|Hs'].
  - symmetry. eapply meaningful_unique; eauto; [right; exact Hs|congruence].
  - destruct Hs as [-> _], Hs' as [-> _]. reflexivity.
Qed.

(** Computing sskip. *)
Lemma sskip_eq p rest : skippable p rest -> meaningful rest ->
  osl_util_sskip_blank_and_comments (p ++ rest) = Ok rest.
Proof.
  intros Hs Hm. destruct (sskip_ok (p ++ rest)) as (r & H1 & H2 & p' & H3 & H4).
  rewrite H1. f_equal. symmetry. eapply (skippable_unique (p ++ rest) p rest p' r); eauto.
Qed.
Lemma sskip_blank p s : blank_text p ->
  osl_util_sskip_blank_and_comments (p ++ s) = osl_util_sskip_blank_and_comments s.
Proof.
  intros Hp. destruct (sskip_ok s) as (r & H1 & H2 & p' & H3 & H4). rewrite H1.
  rewrite H3, app_assoc. apply sskip_eq; [|assumption].
  destruct H4 as [H4|(-> & q & w & -> & Hq & Hw)]; [left; now apply blank_text_app|].
  right. split; [reflexivity|]. exists (p ++ q), w. split; [now rewrite app_assoc|]. split; [now apply blank_text_app|assumption].
Qed.
Lemma sskip_meaningful s : meaningful s -> osl_util_sskip_blank_and_comments s = Ok s.
Proof. intros H. apply (sskip_eq [] s); [left; constructor|assumption]. Qed.

(** ** fgets and the file version *)
Lemma fgets_loop_line n : forall l r, no_nl l -> (List.length l < n)%nat ->
  fgets_loop n (l ++ c_nl :: r) = (l ++ [c_nl], r, false).
Proof.
  induction n as [|n IH]; intros l r Hl Hn; [lia|]. destruct l as [|c l]; cbn [app fgets_loop].
  - rewrite ceqb_refl. reflexivity.
  - destruct (ceqb c c_nl) eqn:E; [apply ceqb_eq in E; subst; exfalso; apply Hl; now left|].
    rewrite IH; [reflexivity| |cbn in Hn; lia]. intros ?; apply Hl; now right.
Qed.
Lemma fgets_loop_last n : forall l, no_nl l -> (List.length l < n)%nat ->
  fgets_loop n l = (l, [], true).
Proof.
  induction n as [|n IH]; intros l Hl Hn; [lia|]. destruct l as [|c l]; cbn [fgets_loop]; [reflexivity|].
  destruct (ceqb c c_nl) eqn:E; [apply ceqb_eq in E; subst; exfalso; apply Hl; now left|].
  rewrite IH; [reflexivity| |cbn in Hn; lia]. intros ?; apply Hl; now right.
Qed.
Lemma fgets_line l r e : no_nl l -> (List.length l <= 2046)%nat ->
  fgets (File (l ++ c_nl :: r) e) = (Some (l ++ [c_nl]), File r e).
Proof.
  intros Hl Hn. unfold fgets. cbn [ftext feof]. rewrite fgets_loop_line by (assumption || lia).
  rewrite orb_false_r. destruct l; reflexivity.
Qed.
Lemma fgets_last l e : no_nl l -> (List.length l <= 2046)%nat ->
  fgets (File l e) = (match l with [] => None | _ => Some l end, File [] true).
Proof.
  intros Hl Hn. unfold fgets. cbn [ftext feof]. rewrite fgets_loop_last by (assumption || lia).
  rewrite orb_true_r. destruct l; reflexivity.
Qed.

Lemma line_cases (s : str) : no_nl s \/ exists l r, s = l ++ c_nl :: r /\ no_nl l.
Proof.
  induction s as [|c s IH]; [left; intros []|].
  destruct (ceqb c c_nl) eqn:E.
  - apply ceqb_eq in E. subst. right. exists [], s. split; [reflexivity|intros []].
  - apply ceqb_neq in E. destruct IH as [IH|(l & r & -> & Hl)].
    + left. intros [->|H]; auto.
    + right. exists (c :: l), r. split; [reflexivity|]. intros [->|H]; auto.
Qed.

Lemma short_lines_tail a s : short_lines (a ++ s) -> short_lines s.
Proof. intros H x y z -> Hn. apply (H (a ++ x) y z); [now rewrite app_assoc|assumption]. Qed.
Lemma short_lines_head a s : short_lines (a ++ s) -> no_nl a -> (List.length a <= 2046)%nat.
Proof. intros H Ha. apply (H [] a s eq_refl Ha). Qed.

Lemma blank_all l : Forall (fun c => is_blank c = true) l -> all_space l.
Proof. apply Forall_impl. intros c. unfold is_blank. now destruct (is_space c). Qed.
Lemma blank_head l : no_nl l -> head_not is_blank l -> head_not is_space l.
Proof.
  destruct l as [|c l]; [auto|]. cbn. unfold is_blank. intros Hn H.
  destruct (is_space c) eqn:E; [|reflexivity]. cbn in H. apply negb_false_iff, ceqb_eq in H.
  subst. exfalso. apply Hn. now left.
Qed.
Lemma no_nl_app a b : no_nl (a ++ b) <-> no_nl a /\ no_nl b.
Proof.
  unfold no_nl. split; [intros H; split; intros ?; apply H; apply in_or_app; auto|].
  intros [Ha Hb] H. apply in_app_or in H. tauto.
Qed.

(** One step of the skipping loop on a short complete line. *)
Definition first_useful (l : str) : str := snd (span is_blank l).
Lemma first_useful_line l : no_nl l -> exists a b, l = a ++ b /\ all_space a /\ head_not is_space b /\
  first_useful (l ++ [c_nl]) = b ++ [c_nl] /\ first_useful l = b.
Proof.
  intros Hl. unfold first_useful.
  pose proof (span_split is_blank l) as H1. pose proof (span_fst is_blank l) as H2. pose proof (span_snd is_blank l) as H3.
  destruct (span is_blank l) as [a b]. cbn [fst snd] in *. exists a, b.
  split; [assumption|]. split; [apply blank_all, H2|]. rewrite H1 in Hl. apply no_nl_app in Hl as [_ Hb].
  split; [apply blank_head; assumption|]. split; [|reflexivity].
  rewrite H1, <- app_assoc, span_exact; [reflexivity|assumption|].
  destruct b as [|c b]; cbn; [|exact H3]. unfold is_blank. now rewrite ceqb_refl, andb_false_r.
Qed.

Definition skip_result (text : str) (o : option str) (f' : file) : Prop :=
  match o with
  | Some (c :: l) =>
      osl_util_sskip_blank_and_comments text = Ok ((c :: l) ++ ftext f') /\
      is_space c = false /\ c <> c_hash /\
      ((exists w, c :: l = w ++ [c_nl] /\ no_nl w) \/ (no_nl (c :: l) /\ ftext f' = [] /\ feof f' = true))
  | _ => osl_util_sskip_blank_and_comments text = Ok [] /\ ftext f' = [] /\ feof f' = true
  end.

Lemma skip_lines_ok fuel : forall s e, (List.length s < fuel)%nat -> short_lines s ->
  exists o f', skip_lines fuel (File s e) = Ok (o, f') /\ skip_result s o f' /\ exists p, s = p ++ ftext f'.
Proof.
  induction fuel as [|k IH]; intros s e Hlen Hs; [lia|]. cbn [skip_lines].
  destruct (line_cases s) as [Hn|(l & r & -> & Hn)].
  - pose proof (Hs [] s []) as Hl. rewrite app_nil_r in Hl. specialize (Hl eq_refl Hn).
    rewrite (fgets_last s e Hn Hl). destruct s as [|c s].
    + exists None, (File [] true). split; [reflexivity|]. split; [|exists []; reflexivity]. repeat split.
    + destruct (first_useful_line (c :: s) Hn) as (a & b & Hab & Ha & Hb & _ & Hfu).
      fold (first_useful (c :: s)). rewrite Hfu.
      rewrite Hab in Hn. apply no_nl_app in Hn as [_ Hnb].
      destruct b as [|d b].
      * exists (Some []), (File [] true). split; [reflexivity|]. split; [|exists (c :: s); now rewrite app_nil_r].
        split; [|split; reflexivity]. rewrite Hab. apply sskip_eq; [left; apply blank_text_spaces, Ha|exact I].
      * cbn in Hb. destruct (ceqb d c_hash) eqn:E; cbn [orb].
        { apply ceqb_eq in E. subst d. destruct k as [|k]; [cbn in Hlen; lia|].
          cbn [skip_lines]. rewrite (fgets_last [] true) by (intros [] || (cbn; lia)).
          exists None, (File [] true). split; [reflexivity|]. split; [|exists (c :: s); now rewrite app_nil_r].
          split; [|split; reflexivity]. rewrite Hab. rewrite <- (app_nil_r (a ++ _)).
          apply sskip_eq; [|exact I]. right. split; [reflexivity|]. exists a, b. split; [reflexivity|].
          split; [apply blank_text_spaces, Ha|]. intros ?; apply Hnb; now right. }
        { destruct (ceqb d c_nl) eqn:E2; [apply ceqb_eq in E2; subst; exfalso; apply Hnb; now left|].
          exists (Some (d :: b)), (File [] true). split; [reflexivity|]. split; [|exists (c :: s); now rewrite app_nil_r].
          cbn [skip_result ftext feof]. rewrite app_nil_r, Hab. split.
          { apply sskip_eq; [left; apply blank_text_spaces, Ha|]. split; [assumption|]. now apply ceqb_neq. }
          split; [assumption|]. split; [now apply ceqb_neq|]. right. auto. }
  - pose proof (short_lines_head l (c_nl :: r) Hs Hn) as Hl.
    rewrite (fgets_line l r e Hn Hl).
    destruct (first_useful_line l Hn) as (a & b & Hab & Ha & Hb & Hfu & _).
    fold (first_useful (l ++ [c_nl])). rewrite Hfu.
    assert (Hr : short_lines r).
    { apply (short_lines_tail (l ++ [c_nl])). now rewrite <- app_assoc. }
    assert (Hlr : (List.length r < k)%nat) by (rewrite app_length in Hlen; cbn in Hlen; lia).
    rewrite Hab in Hn. apply no_nl_app in Hn as [Hna Hnb].
    destruct b as [|d b].
    + cbn [app]. rewrite orb_true_r || idtac.
      change (ceqb c_nl c_hash || ceqb c_nl c_nl) with true. cbn iota.
      destruct (IH r e Hlr Hr) as (o & f' & H1 & H2 & p & H3). exists o, f'. split; [assumption|].
      split; [|exists (l ++ c_nl :: p); rewrite H3 at 1; now rewrite <- app_assoc].
      assert (Hsk : osl_util_sskip_blank_and_comments (l ++ c_nl :: r) = osl_util_sskip_blank_and_comments r).
      { change (c_nl :: r) with ([c_nl] ++ r). rewrite app_assoc. apply sskip_blank.
        rewrite Hab, app_nil_r. apply blank_text_app; [apply blank_text_spaces, Ha|].
        constructor; [reflexivity|constructor]. }
      unfold skip_result in *. rewrite Hsk. exact H2.
    + cbn in Hb. cbn [app]. destruct (ceqb d c_hash) eqn:E; cbn [orb].
      * apply ceqb_eq in E. subst d.
        destruct (IH r e Hlr Hr) as (o & f' & H1 & H2 & p & H3). exists o, f'. split; [assumption|].
        split; [|exists (l ++ c_nl :: p); rewrite H3 at 1; now rewrite <- app_assoc].
        assert (Hsk : osl_util_sskip_blank_and_comments (l ++ c_nl :: r) = osl_util_sskip_blank_and_comments r).
        { change (c_nl :: r) with ([c_nl] ++ r). rewrite app_assoc. apply sskip_blank.
          rewrite Hab, <- app_assoc. apply blank_text_app; [apply blank_text_spaces, Ha|].
          cbn. apply bt_comment; [|constructor]. intros ?; apply Hnb; now right. }
        unfold skip_result in *. rewrite Hsk. exact H2.
      * destruct (ceqb d c_nl) eqn:E2; [apply ceqb_eq in E2; subst; exfalso; apply Hnb; now left|].
        exists (Some (d :: b ++ [c_nl])), (File r e). split; [reflexivity|].
        split; [|exists (l ++ [c_nl]); now rewrite <- app_assoc].
        cbn [skip_result ftext feof]. split.
        { rewrite Hab, <- app_assoc. replace ((d :: b) ++ c_nl :: r) with ((d :: b ++ [c_nl]) ++ r)
            by (cbn; rewrite <- app_assoc; reflexivity).
          apply sskip_eq; [left; apply blank_text_spaces, Ha|]. split; [assumption|]. now apply ceqb_neq. }
        split; [assumption|]. split; [now apply ceqb_neq|]. left. exists (d :: b). auto.
Qed.

Lemma skip_file_ok f : short_lines (ftext f) ->
  exists o f', osl_util_skip_blank_and_comments f = Ok (o, f') /\ skip_result (ftext f) o f' /\
  exists p, ftext f = p ++ ftext f'.
Proof. destruct f as [s e]. apply skip_lines_ok. cbn. lia. Qed.

(** Computing the file version on a known text: skipped lines, then a line. *)
Lemma skip_lines_mono fuel : forall f x, skip_lines fuel f = Ok x -> forall k, (fuel <= k)%nat -> skip_lines k f = Ok x.
Proof.
  induction fuel as [|n IH]; intros f x H k Hk; [discriminate|]. destruct k as [|k]; [lia|].
  cbn [skip_lines] in *. destruct (fgets f) as [[l|] f']; [|assumption].
  destruct (snd (span is_blank l)) as [|c t]; [assumption|].
  destruct (ceqb c c_hash || ceqb c c_nl); [|assumption]. apply IH; [assumption|lia].
Qed.
Lemma skip_file_line l r e : no_nl l -> (List.length l <= 2046)%nat ->
  (exists c t, l = c :: t /\ is_space c = false /\ c <> c_hash) ->
  osl_util_skip_blank_and_comments (File (l ++ c_nl :: r) e) = Ok (Some (l ++ [c_nl]), File r e).
Proof.
  intros Hn Hl (c & t & -> & Hc & Hh). unfold osl_util_skip_blank_and_comments. cbn [skip_lines].
  rewrite fgets_line by assumption. cbn [app span].
  replace (is_blank c) with false by (unfold is_blank; now rewrite Hc). cbn [snd].
  assert (c <> c_nl) by (intros ->; discriminate).
  apply ceqb_neq in Hh. apply ceqb_neq in H. now rewrite Hh, H.
Qed.
Lemma skip_file_step l r e : no_nl l -> (List.length l <= 2046)%nat ->
  (all_space l \/ exists a b, l = a ++ c_hash :: b /\ all_space a) ->
  forall o f', osl_util_skip_blank_and_comments (File r e) = Ok (o, f') ->
  osl_util_skip_blank_and_comments (File (l ++ c_nl :: r) e) = Ok (o, f').
Proof.
  intros Hn Hl Hsk o f' H. unfold osl_util_skip_blank_and_comments in *. cbn [ftext] in *.
  change (skip_lines (S (List.length (l ++ c_nl :: r))) (File (l ++ c_nl :: r) e)) with
    (let '(o0, f'0) := fgets (File (l ++ c_nl :: r) e) in
     match o0 with
     | None => Ok (None, f'0)
     | Some l0 => match snd (span is_blank l0) with
        | [] => Ok (Some [], f'0)
        | c :: _ => if ceqb c c_hash || ceqb c c_nl then skip_lines (List.length (l ++ c_nl :: r)) f'0
                    else Ok (Some (snd (span is_blank l0)), f'0) end end).
  rewrite fgets_line by assumption. cbv zeta iota beta.
  destruct (first_useful_line l Hn) as (a & b & Hab & Ha & Hb & Hfu & _).
  unfold first_useful in Hfu. rewrite Hfu.
  assert (Hrun : skip_lines (List.length (l ++ c_nl :: r)) (File r e) = Ok (o, f')).
  { eapply skip_lines_mono; [exact H|]. rewrite app_length. cbn. lia. }
  destruct b as [|d b]; [exact Hrun|]. cbn [app].
  assert (d = c_hash); [|subst; exact Hrun].
  cbn in Hb. destruct Hsk as [Hsk|(a' & b' & E & Ha')].
  - rewrite Hab in Hsk. apply Forall_app in Hsk as [_ Hsk]. inversion Hsk; subst. congruence.
  - rewrite Hab in E. revert a' E Ha'. clear -Ha Hb. induction a as [|x a IH]; intros [|y a'] E Ha'; cbn in E.
    + congruence.
    + injection E as -> _. inversion Ha'; subst. congruence.
    + injection E as -> _. inversion Ha; subst. discriminate.
    + injection E as -> E. inversion Ha; subst; inversion Ha'; subst. eapply IH; eauto.
Qed.
Lemma skip_file_nil e : osl_util_skip_blank_and_comments (File [] e) = Ok (None, File [] true).
Proof. unfold osl_util_skip_blank_and_comments. cbn. now rewrite orb_true_r. Qed.
