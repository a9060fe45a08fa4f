(** * Proofs about the textual form of relations *)
From Coq Require Import ZifyBool ZifyNat.
From Verif Require Import Base IntModel VectorModel RelationModel UtilModel StringsModel RelTextModel
  Spec RelSpec TextSpec LoopLemmas IntProofs TextInt VectorProofs RelationProofs UtilProofs.

(** Partial-correctness rule for loops. *)
Lemma cfor_post {S} (I : Z -> S -> Prop) lo hi (body : Z -> S -> res S) s s' :
  lo <= hi -> I lo s ->
  (forall i s s1, lo <= i < hi -> I i s -> body i s = Ok s1 -> I (i + 1) s1) ->
  cfor lo hi body s = Ok s' -> I hi s'.
Proof.
  intros Hle. remember (Z.to_nat (hi - lo)) as n eqn:En. revert lo s Hle En.
  induction n as [|n IH]; intros lo s Hle En H0 Hs H.
  - rewrite cfor_empty in H by lia. injection H as <-. replace hi with lo by lia. assumption.
  - rewrite cfor_step in H by lia. destruct (body lo s) as [s1| | |] eqn:E; try discriminate. cbn [bind] in H.
    apply (IH (lo + 1) s1); [lia|lia|apply (Hs lo s s1); [lia|assumption|assumption]| |assumption].
    intros i x x1 Hi. apply Hs. lia.
Qed.
Lemma cfor_post_const {S} (P : S -> Prop) lo hi (body : Z -> S -> res S) s s' :
  P s -> (forall i s s1, lo <= i < hi -> P s -> body i s = Ok s1 -> P s1) ->
  cfor lo hi body s = Ok s' -> P s'.
Proof.
  intros H0 Hs H. destruct (Z.le_gt_cases lo hi) as [Hle|Hgt].
  - apply (cfor_post (fun _ => P) lo hi body s s'); auto.
  - rewrite cfor_empty in H by lia. congruence.
Qed.

Lemma bind_ok {A B} (x : res A) (f : A -> res B) b : bind x f = Ok b -> exists a, x = Ok a /\ f a = Ok b.
Proof. destruct x; try discriminate. cbn. eauto. Qed.
Lemma Ok_inj {A} (a b : A) : Ok a = Ok b -> a = b.
Proof. congruence. Qed.
Ltac inv_bind H := let a := fresh "v" in let E := fresh "E" in
  apply bind_ok in H as (a & E & H); cbn beta iota zeta in H, E.

Section T.
Context {cfg : config}.

(** ** No newline in the comments *)
Lemma buf_store_eq t t' : buf_store t = Ok t' -> t' = t.
Proof. unfold buf_store. destruct (_ <? _); congruence. Qed.
Lemma buf_store_ok t : zlength t < 2048 -> buf_store t = Ok t.
Proof. intros H. unfold buf_store, MAX_STRING. destruct (Z.ltb_spec (zlength t) 2048); [reflexivity|lia]. Qed.

Lemma digits_no_nl s : digits s -> no_nl s.
Proof.
  intros H Hin. unfold digits in H. rewrite Forall_forall in H. specialize (H _ Hin). discriminate.
Qed.
Lemma print_Z_no_nl v : no_nl (print_Z v).
Proof.
  unfold print_Z. destruct (Z.ltb_spec v 0).
  - destruct (print_nat_ok (- v)) as (Hd & _); [lia|]. apply digits_no_nl in Hd.
    intros [E|Hi]; [discriminate|auto].
  - destruct (print_nat_ok v) as (Hd & _); [lia|]. now apply digits_no_nl.
Qed.
Lemma no_nl_lit s : existsb (ceqb c_nl) s = false -> no_nl s.
Proof.
  intros H Hin. assert (existsb (ceqb c_nl) s = true); [|congruence].
  apply existsb_exists. exists c_nl. split; [assumption|apply ceqb_refl].
Qed.
Lemma no_nl_nil : no_nl [].
Proof. intros []. Qed.
Lemma no_nl_cons c s : ceqb c c_nl = false -> no_nl s -> no_nl (c :: s).
Proof. intros H Hs [E|Hi]; [subst; rewrite ceqb_refl in H; discriminate|auto]. Qed.
Lemma no_nl_firstn n s : no_nl s -> no_nl (firstn n s).
Proof. intros H Hi. apply H. rewrite <- (firstn_skipn n s). apply in_or_app. now left. Qed.

Hint Resolve no_nl_nil print_Z_no_nl : nonl.
Ltac nonl := repeat first [apply no_nl_app; split | assumption | apply no_nl_nil | apply print_Z_no_nl
                          | apply no_nl_firstn | (apply no_nl_cons; [reflexivity|])
                          | (apply no_nl_lit; reflexivity)].

Lemma sprint_txt_eq p v t : osl_int_sprint_txt p v = Ok t -> t = print_Z v.
Proof.
  unfold osl_int_sprint_txt, pswitch. destruct (is_fixed p); [congruence|]. destruct (is_mp p); congruence.
Qed.

Lemma element_no_nl v p first cst name t f' : no_nl name ->
  osl_relation_expression_element v p first cst name = Ok (t, f') -> no_nl t.
Proof.
  intros Hn H. unfold osl_relation_expression_element in H.
  inv_bind H. inv_bind H. inv_bind H. inv_bind H. inv_bind H. inv_bind H. inv_bind H.
  destruct v6 as [t0 f0]. inv_bind H. injection H as -> _. apply buf_store_eq in E6. subst t.
  apply sprint_txt_eq in E4. subst.
  destruct (negb v0 && negb cst).
  - destruct (first || v1); injection E5 as <- _.
    + destruct v2; [assumption|]. destruct v3; nonl.
    + destruct v2; nonl.
  - destruct cst; [|injection E5 as <- _; nonl]. injection E5 as <- _.
    destruct v4; [destruct (negb first)|]; nonl. destruct (_ || _); nonl.
Qed.

Lemma aget_In {A} (l : list A) i v : aget l i = Ok v -> In v l.
Proof.
  unfold aget. destruct (i <? 0); [discriminate|]. destruct (nth_error l (Z.to_nat i)) eqn:E; [|discriminate].
  injection 1 as <-. eapply nth_error_In; eauto.
Qed.

Lemma subexpression_no_nl r row a b o strings t : Forall no_nl strings ->
  osl_relation_subexpression r row a b o strings = Ok t -> no_nl t.
Proof.
  intros Hs H. unfold osl_relation_subexpression in H. inv_bind H. destruct v as [line f].
  injection H as <-.
  apply (cfor_post_const (fun s => no_nl (fst s))) in E; [exact E|exact no_nl_nil|].
  clear E line f. intros i [line f] s1 _ Hl H. cbn [fst] in *.
  inv_bind H. inv_bind H. inv_bind H. inv_bind H. destruct v2 as [t1 f1].
  inv_bind H. inv_bind H. injection H as <-. cbn [fst]. apply buf_store_eq in E4. subst.
  apply no_nl_app. split; [assumption|]. eapply element_no_nl; [|eassumption].
  rewrite Forall_forall in Hs. apply Hs. eapply aget_In; eauto.
Qed.

Definition comment_head : str := lit "   ## ".
Lemma snp_head e : snp (lit "   ## " ++ e) = comment_head ++ firstn 2041 e.
Proof. unfold snp. change 2047%nat with (6 + 2041)%nat. reflexivity. Qed.

Lemma sprint_comment_shape u r row strings arrays c : Forall no_nl strings -> Forall no_nl (elems arrays) ->
  osl_relation_sprint_comment u r row strings arrays = Ok c ->
  exists w, c = comment_head ++ w /\ no_nl w.
Proof.
  intros Hs Ha H. unfold osl_relation_sprint_comment in H. inv_bind H.
  destruct (negb (v =? 0)).
  - inv_bind H. inv_bind H. inv_bind H. apply subexpression_no_nl in E0; [|assumption].
    destruct (_ || _).
    + inv_bind H. apply Ok_inj in H; subst c. apply subexpression_no_nl in E3; [|assumption].
      rewrite snp_head, <- app_assoc. eexists. split; [reflexivity|].
      apply no_nl_app. split; [now apply no_nl_firstn|]. unfold snp. apply no_nl_firstn. nonl.
    + inv_bind H. inv_bind H. apply Ok_inj in H; subst c. apply aget_In in E4.
      rewrite snp_head, <- app_assoc. eexists. split; [reflexivity|].
      apply no_nl_app. split; [now apply no_nl_firstn|]. unfold snp. apply no_nl_firstn.
      apply no_nl_app. split; [nonl|]. rewrite Forall_forall in Ha. auto.
  - inv_bind H. inv_bind H. inv_bind H. apply Ok_inj in H; subst c.
    apply subexpression_no_nl in E0; [|assumption].
    rewrite snp_head, <- app_assoc. eexists. split; [reflexivity|].
    apply no_nl_app. split; [now apply no_nl_firstn|]. destruct v2; nonl.
Qed.

Lemma column_fields_no_nl r strings : Forall no_nl strings -> forall i, no_nl (column_fields r i strings).
Proof.
  induction 1 as [|s l Hs Hl IH]; intros i; [nonl|]. cbn [column_fields].
  apply no_nl_app. split; [|apply no_nl_app; split; [|apply IH]].
  - unfold column_field. apply no_nl_app. split; [|apply no_nl_app; split].
    + intros Hi. apply repeat_spec in Hi. discriminate.
    + destruct (_ <=? _); nonl.
    + intros Hi. apply repeat_spec in Hi. discriminate.
  - destruct (_ || _); nonl.
Qed.

Lemma column_string_shape r strings c : Forall no_nl strings ->
  osl_relation_column_string r strings = Ok c ->
  exists w, snp c = c_hash :: w ++ [c_nl] /\ no_nl w.
Proof.
  intros Hs H. unfold osl_relation_column_string in H. pose proof H as H'. apply buf_store_eq in H. subst c.
  exists (column_fields r 0 strings). split; [|now apply column_fields_no_nl].
  unfold snp. apply firstn_all2. unfold buf_store, MAX_STRING, zlength in H'.
  destruct (Z.ltb_spec (Z.of_nat (length (lit "#" ++ column_fields r 0 strings ++ [c_nl]))) 2048); [|discriminate].
  cbn [lit list_ascii_of_string app List.length] in *. lia.
Qed.

(** ** Names *)
Definition good_names (n : names) : Prop :=
  Forall no_nl (elems (n_params n)) /\ Forall no_nl (elems (n_iters n)) /\
  Forall no_nl (elems (n_scatt n)) /\ Forall no_nl (elems (n_locals n)) /\ Forall no_nl (elems (n_arrays n)).

Definition slot_ok (o : option str) : Prop := match o with Some s => no_nl s | None => True end.
Lemma aset_Forall {A} (P : A -> Prop) l i v l' : Forall P l -> P v -> aset l i v = Ok l' -> Forall P l'.
Proof.
  intros Hl Hv. unfold aset. destruct (_ && _); [|discriminate]. injection 1 as <-.
  now apply list_set_Forall.
Qed.
Lemma copy_names_ok src lo hi a a' : Forall no_nl (elems src) -> Forall slot_ok a ->
  copy_names src lo hi a = Ok a' -> Forall slot_ok a'.
Proof.
  intros Hs Ha. apply (cfor_post_const (Forall slot_ok)); [assumption|].
  intros i s s1 _ H E. inv_bind E. eapply aset_Forall; [exact H| |exact E]. cbn.
  rewrite Forall_forall in Hs. apply Hs. eapply aget_In; eauto.
Qed.
Lemma collect_ok a l : Forall slot_ok a ->
  mapM (fun o => match o with Some s => Ok s | None => UB end) a = Ok l -> Forall no_nl l.
Proof.
  revert l. induction a as [|o a IH]; intros l Ha H; cbn [mapM] in H.
  - injection H as <-. constructor.
  - inversion Ha; subst. destruct o as [s|]; [|discriminate]. cbn [bind] in H. inv_bind H. injection H as <-.
    constructor; [assumption|]. now apply IH.
Qed.
Lemma relation_strings_no_nl r n l : good_names n -> osl_relation_strings r n = Ok l -> Forall no_nl l.
Proof.
  intros (Hp & Hi & Hs & Hl & _) H. unfold osl_relation_strings in H.
  inv_bind H. inv_bind H. inv_bind H. inv_bind H. inv_bind H. inv_bind H.
  eapply collect_ok; [|eassumption].
  eapply aset_Forall; [| |exact E4]; [|apply no_nl_lit; reflexivity].
  eapply copy_names_ok; [exact Hp| |exact E3].
  eapply copy_names_ok; [exact Hl| |exact E2].
  eapply copy_names_ok; [exact Hi| |exact E1].
  assert (Hv : Forall slot_ok v).
  { eapply aset_Forall; [| |exact E]; [|apply no_nl_lit; reflexivity]. apply Forall_forall. intros x Hx.
    apply repeat_spec in Hx. subst. exact I. }
  destruct (osl_relation_is_access r); [|destruct (_ || _)].
  - inv_bind E0. revert E0. apply (cfor_post_const (Forall slot_ok)).
    + eapply aset_Forall; [exact Hv| |exact E5]; apply no_nl_lit; reflexivity.
    + intros i s s1 _ Hst E6. eapply aset_Forall; [exact Hst| |exact E6]. cbn [slot_ok]. nonl.
  - eapply copy_names_ok; [exact Hi|exact Hv|exact E0].
  - eapply copy_names_ok; [exact Hs|exact Hv|exact E0].
Qed.

Lemma generate_no_nl prefix nb s : no_nl prefix -> osl_strings_generate prefix nb = Ok s -> Forall no_nl (elems s).
Proof.
  intros Hp. unfold osl_strings_generate. destruct (nb =? 0); [injection 1 as <-; constructor|].
  destruct (nb <? 0); [discriminate|]. injection 1 as <-. cbn [elems].
  generalize 0. induction (Z.to_nat nb) as [|k IH]; intros i; cbn [generate_loop]; constructor; [nonl|apply IH].
Qed.
Lemma relation_names_good u n : osl_relation_names u = Ok n -> good_names n.
Proof.
  intros H. unfold osl_relation_names, osl_names_generate in H. inv_bind H.
  inv_bind H. inv_bind H. inv_bind H. inv_bind H. inv_bind H. injection H as <-.
  unfold good_names. cbn [n_params n_iters n_scatt n_locals n_arrays].
  repeat split; (eapply generate_no_nl; [|eassumption]; nonl).
Qed.

End T.
