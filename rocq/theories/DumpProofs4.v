(** * DumpProofs4: dumps can be told from each other *)
From Verif Require Import Base Spec RelSpec TextSpec IntModel IntProofs VectorModel RelationModel RelationProofs UtilModel StringsModel RelTextModel LoopLemmas
  UtilProofs TextInt RelTextProofs RelTextProofs2 PropExpr2 SaveProofs ExtModel ScopModel IrregModel DumpModel DumpSpec DumpProofs DumpProofs2 DumpProofs3.

(** ** Lines *)
Lemma app_no_nl a b s s' : no_nl a -> no_nl b -> a ++ c_nl :: s = b ++ c_nl :: s' -> a = b /\ s = s'.
Proof.
  revert b. induction a as [|x a IH]; intros [|y b] Ha Hb E; cbn [app] in E.
  - injection E as E. auto.
  - injection E as E1 E2. subst y. elim Hb. now left.
  - injection E as E1 E2. subst x. elim Ha. now left.
  - injection E as E1 E2. subst y. destruct (IH b) as [-> ->]; auto; intros H; [apply Ha|apply Hb]; now right.
Qed.
Lemma line_inj l a b s s' : no_nl a -> no_nl b -> line l a ++ s = line l b ++ s' -> a = b /\ s = s'.
Proof.
  intros Ha Hb E. unfold line in E. rewrite <- !app_assoc in E. apply app_inv_head in E. cbn [app] in E. now apply app_no_nl.
Qed.
(** ** Words and numbers *)
Lemma word_inj w w' c c' s s' : Forall (fun c => is_space c = false) w -> Forall (fun c => is_space c = false) w' ->
  is_space c = true -> is_space c' = true -> w ++ c :: s = w' ++ c' :: s' -> w = w' /\ c = c' /\ s = s'.
Proof.
  intros Hw. revert w'. induction Hw as [|x w Hx Hw IH]; intros w' Hw' Hc Hc' E; destruct Hw' as [|y w' Hy Hw']; cbn [app] in E.
  - injection E as -> ->. auto.
  - injection E as E1 E2. subst. congruence.
  - injection E as E1 E2. subst. congruence.
  - injection E as E1 E2. subst. destruct (IH w') as (-> & -> & ->); auto.
Qed.
Lemma num_inj a b s s' : no_digit_head s -> no_digit_head s' -> print_Z a ++ s = print_Z b ++ s' -> a = b /\ s = s'.
Proof.
  intros H H' E. apply (f_equal scan_Z) in E. rewrite !scan_print_nospace in E by assumption. now injection E as -> ->.
Qed.
Lemma pad_inj a b s s' : no_digit_head s -> no_digit_head s' -> pad4 (print_Z a) ++ s = pad4 (print_Z b) ++ s' -> a = b /\ s = s'.
Proof. intros H H' E. apply (f_equal scan_Z) in E. rewrite !scan_print in E by assumption. now injection E as -> ->. Qed.
Lemma print2_scan v rest : no_digit_head rest -> scan_Z (print2 v ++ rest) = Some (Some (v, rest)).
Proof.
  intros H. unfold print2. rewrite <- app_assoc. rewrite scan_Z_skip; [now apply scan_print_nospace|].
  destruct (print_Z v) as [|c [|d t]]; repeat constructor.
Qed.
Lemma num2_inj a b s s' : no_digit_head s -> no_digit_head s' -> print2 a ++ s = print2 b ++ s' -> a = b /\ s = s'.
Proof. intros H H' E. apply (f_equal scan_Z) in E. rewrite !print2_scan in E by assumption. now injection E as -> ->. Qed.
(** Numbers of a list of known length, with what follows each of them *)
Lemma nums_inj (pz : Z -> str) sep l l' s s' :
  (forall a b s s', no_digit_head s -> no_digit_head s' -> pz a ++ s = pz b ++ s' -> a = b /\ s = s') -> no_digit_head (sep ++ []) -> sep <> [] ->
  List.length l = List.length l' -> flat_map (fun v => pz v ++ sep) l ++ s = flat_map (fun v => pz v ++ sep) l' ++ s' -> l = l' /\ s = s'.
Proof.
  intros Hz Hd Hne. assert (D : forall t, no_digit_head (sep ++ t)). { intros t. destruct sep; [congruence|exact Hd]. }
  revert l'. induction l as [|x l IH]; intros [|y l'] Hl E; try discriminate; [auto|]. cbn [flat_map] in E. rewrite <- !app_assoc in E.
  apply Hz in E; auto. destruct E as [-> E]. apply app_inv_head in E. injection Hl as Hl. destruct (IH l' Hl E) as [-> ->]. auto.
Qed.
Lemma spaced_inj l l' s s' : List.length l = List.length l' -> spaced l ++ s = spaced l' ++ s' -> l = l' /\ s = s'.
Proof.
  intros Hl E. eapply (nums_inj (fun v => pad4 (print_Z v)) (lit " ")); eauto; [|reflexivity|discriminate].
  intros a b t t' H H'. now apply pad_inj.
Qed.
Lemma print_spaced_inj l l' : List.length l = List.length l' -> print_spaced l = print_spaced l' -> l = l'.
Proof.
  revert l'. induction l as [|x l IH]; intros [|y l'] Hl E; try discriminate; [auto|]. injection Hl as Hl. cbn [print_spaced] in E.
  destruct l as [|x2 l], l' as [|y2 l']; try discriminate.
  - f_equal. now apply print_Z_inj.
  - apply num_inj in E; [|reflexivity..]. destruct E as [-> E]. f_equal. apply IH; [exact Hl|]. now apply (app_inv_head [c_sp]) in E.
Qed.

(** ** Texts that can be read back *)
Definition code {A} (f : A -> Z -> res str) (P : A -> Prop) : Prop :=
  forall x y l a b s s', 0 <= l -> P x -> P y -> f x l = Ok a -> f y l = Ok b -> a ++ s = b ++ s' -> x = y /\ s = s'.
Definition code_str {A} (f : A -> Z -> str) (P : A -> Prop) : Prop :=
  forall x y l s s', 0 <= l -> P x -> P y -> f x l ++ s = f y l ++ s' -> x = y /\ s = s'.
Lemma code_ok {A} (f : A -> Z -> str) P : code_str f P -> code (fun x l => Ok (f x l)) P.
Proof. intros H x y l a b s s' Hl Hx Hy Ea Eb E. apply Ok_inj in Ea. apply Ok_inj in Eb. subst. eauto. Qed.
Lemma code_imp {A} (f : A -> Z -> res str) (P Q : A -> Prop) : (forall x, P x -> Q x) -> code f Q -> code f P.
Proof. intros H Hc x y l a b s s' Hl Hx Hy. apply Hc; auto. Qed.
(** Compare two texts line by line. *)
Ltac cmp E :=
  rewrite <- ?app_assoc in E;
  let H := fresh "H" in
  apply line_inj in E; [destruct E as [H E] | solve [nonl] | solve [nonl] ].
Ltac cmpx E := rewrite <- ?app_assoc in E; let H := fresh "H" in apply line_inj in E; [destruct E as [H E] | | ].
Lemma title_same n l t t' s s' : no_nl t -> no_nl t' -> next_title n l t ++ s = next_title n l t' ++ s' -> s = s'.
Proof.
  intros Ht Ht' E. unfold next_title in E. destruct (n =? 1); [exact E|]. apply line_inj in E; [|assumption..]. apply E.
Qed.
Lemma code_chain {A} (f : Z -> Z -> A -> res str) (P : A -> Prop) (title null : str) :
  no_nl title -> no_nl null -> title <> null ->
  (forall n, code (fun x l => f l n x) P) ->
  code (fun xs l => t <- nodes (f l) (line (l + 1) (lit "V")) 1 xs ;;
                    Ok (line l (match xs with _ :: _ => title | [] => null end) ++ t ++ line (l + 1) [])) (Forall P).
Proof.
  intros Ht Hn Hne Hf.
  assert (R : forall l xs ys n a b s s', 0 <= l -> Forall P xs -> Forall P ys -> (xs = [] <-> ys = []) ->
    nodes (f l) (line (l + 1) (lit "V")) n xs = Ok a -> nodes (f l) (line (l + 1) (lit "V")) n ys = Ok b ->
    a ++ line (l + 1) [] ++ s = b ++ line (l + 1) [] ++ s' -> xs = ys /\ s = s').
  { intros l. induction xs as [|x xs IH]; intros [|y ys] n a b s s' Hl Hx Hy [H1 H2] Ea Eb E.
    - cbn in Ea, Eb. apply Ok_inj in Ea. apply Ok_inj in Eb. subst. cbn [app] in E. apply app_inv_head in E. auto.
    - specialize (H1 eq_refl). discriminate.
    - specialize (H2 eq_refl). discriminate.
    - cbn [nodes] in Ea, Eb. fold (nodes (f l) (line (l + 1) (lit "V"))) in Ea, Eb.
      inv_bind Ea. inv_bind Ea. inv_bind Eb. inv_bind Eb. apply Ok_inj in Ea. apply Ok_inj in Eb. subst.
      rewrite <- !app_assoc in E. inversion Hx; subst. inversion Hy; subst.
      eapply (Hf n x y l) in E; eauto. destruct E as [-> E].
      destruct xs as [|x2 xs], ys as [|y2 ys].
      + cbn in E1, E3. apply Ok_inj in E1. apply Ok_inj in E3. subst. cbn [app] in E. apply app_inv_head in E. subst. auto.
      + cbn in E1. apply Ok_inj in E1. subst. cbn [app] in E. cmp E. discriminate.
      + cbn in E3. apply Ok_inj in E3. subst. cbn [app] in E. cmp E. discriminate.
      + apply app_inv_head in E. eapply (IH (y2 :: ys) (n + 1)) in E; eauto; [destruct E as [-> ->]; auto|]. split; discriminate. }
  intros xs ys l a b s s' Hl Hx Hy Ea Eb E. inv_bind Ea. inv_bind Eb. apply Ok_inj in Ea. apply Ok_inj in Eb. subst.
  rewrite <- !app_assoc in E. apply line_inj in E; [|destruct xs; assumption|destruct ys; assumption]. destruct E as [Et E].
  eapply R; eauto. destruct xs, ys; split; intros; try reflexivity; try discriminate; congruence.
Qed.

Section CODES.
Context {cfg : config}.
(** *** Relations *)
Lemma type_inj t t' s s' : known_type t -> known_type t' -> type_string t ++ lit ", " ++ s = type_string t' ++ lit ", " ++ s' -> t = t' /\ s = s'.
Proof.
  intros H H'. cbn in H, H'.
  repeat (destruct H as [<- | H]; [repeat (destruct H' as [<- | H']; [cbn; intros E; first [discriminate | injection E as E; now auto]|]); destruct H'|]).
  destruct H.
Qed.
Lemma precision_inj p p' s s' : supported cfg p -> supported cfg p' -> precision_text p ++ lit ")" ++ s = precision_text p' ++ lit ")" ++ s' -> p = p' /\ s = s'.
Proof.
  intros [-> | [-> | [-> _]]] [-> | [-> | [-> _]]]; cbn; intros E; first [discriminate | injection E as E; now auto].
Qed.
Lemma int_print_text p v t : osl_int_print p v = Ok t -> t = pad4 (print_Z v).
Proof.
  unfold osl_int_print, osl_int_sprint, pswitch. intros H.
  destruct (is_fixed p); [|destruct (is_mp p); [|discriminate]]; cbn [bind] in H; apply buf_store_eq in H; now subst.
Qed.
Lemma collected {A} (d : A) (g : A -> str) l body t : (forall i s s', 0 <= i < zlength l -> body i s = Ok s' -> s' = s ++ g (znth d l i)) ->
  cfor 0 (zlength l) body [] = Ok t -> t = flat_map g l.
Proof.
  intros H E. pose proof (zlength_nonneg l) as Hl.
  apply (cfor_post (fun i s => s = flat_map g (firstn (Z.to_nat i) l)) 0 (zlength l) body [] t) in E.
  - rewrite E. f_equal. apply firstn_all2. unfold zlength. lia.
  - exact Hl.
  - reflexivity.
  - intros i s s' Hi -> E'. rewrite (H i _ s' Hi E'). rewrite (firstn_next d) by exact Hi. rewrite flat_map_app. cbn [flat_map]. now rewrite app_nil_r.
Qed.
Lemma part_shape level n r t : wf_rel cfg r -> part_idump level n r = Ok t ->
  t = next_title n level (lit "|   " ++ part_name r) ++ in_lines (part_lines level r).
Proof.
  intros W H. pose proof (rows_length r W) as HR. pose proof (rows_width r W) as HC. unfold part_idump in H. inv_bind H. apply Ok_inj in H. subst t.
  rewrite <- HR in E at 1. apply (collected [] (fun row => line (level + 1) (lit "[ " ++ spaced row ++ lit "]")) (rows r)) in E.
  - rewrite title_ok by apply W. unfold part_lines. rewrite in_lines_cons. subst v. do 2 f_equal. f_equal. clear.
    induction (rows r) as [|row l IH]; [reflexivity|]. cbn [flat_map map]. rewrite in_lines_cons. now rewrite IH.
  - intros i s s' Hi H. inv_bind H. apply Ok_inj in H. subst s'. f_equal. unfold row_idump in E0. inv_bind E0. apply Ok_inj in E0. subst v0. do 2 f_equal. f_equal.
    assert (Hw : zlength (znth [] (rows r) i) = ncols r) by (rewrite (Forall_znth _ []) in HC; now apply HC).
    rewrite <- Hw in E1 at 1. apply (collected 0 (fun v => pad4 (print_Z v) ++ [c_sp]) (znth [] (rows r) i)) in E1; [exact E1|].
    intros j u u' Hj H. rewrite Hw in Hj.
    assert (Eg : mget (rm r) i j = Ok (znth 0 (znth [] (rows r) i) j)).
    { rewrite (mget_ok _ _ _ i j (wf_mat r W)) by lia. unfold cell. f_equal. f_equal. f_equal. unfold rows. destruct (Z.eqb_spec (ncols r) 0); [lia|reflexivity]. }
    rewrite Eg in H. cbn [bind] in H. inv_bind H. apply Ok_inj in H. subst u'. apply int_print_text in E0. now subst.
Qed.
Lemma rows_det r r' : wf_rel cfg r -> wf_rel cfg r' -> nrows r = nrows r' -> ncols r = ncols r' -> rows r = rows r' -> rm r = rm r'.
Proof.
  intros W W' ER EC E. unfold rows in E. rewrite <- EC in E. destruct (Z.eqb_spec (ncols r) 0) as [H|H]; [|exact E].
  destruct W as (_ & _ & _ & H1 & _), W' as (_ & _ & _ & H1' & _). rewrite H1, H1'; auto. right. congruence.
Qed.
Lemma no_nl_spaced_cells row : no_nl (spaced row).
Proof. unfold spaced. apply no_nl_flat_all. intros v. nonl. apply no_nl_pad4, print_Z_no_nl. Qed.
Lemma no_nl_part_name r : no_nl (part_name r).
Proof. unfold part_name, precision_text. nonl. Qed.
Lemma part_name_inj r r' : clear_relation cfg r -> clear_relation cfg r' -> part_name r = part_name r' -> rtype r = rtype r' /\ rprec r = rprec r'.
Proof.
  intros [W T] [W' T'] E. unfold part_name in E. apply app_inv_head in E. apply type_inj in E; auto. destruct E as [-> E]. split; [reflexivity|].
  apply (f_equal (fun x => x ++ [])) in E. rewrite <- !app_assoc in E. apply precision_inj in E; [apply E|apply W|apply W'].
Qed.
(** The sizes and the rows *)
Lemma lines_inj level r r' s s' : clear_relation cfg r -> clear_relation cfg r' -> rtype r = rtype r' -> rprec r = rprec r' ->
  in_lines (part_lines level r) ++ s = in_lines (part_lines level r') ++ s' -> r = r' /\ s = s'.
Proof.
  intros [W T] [W' T'] Et Ep E. unfold part_lines in E. rewrite !in_lines_cons in E. cmp E.
  change (print_spaced [nrows r; ncols r; nout r; nin r; nloc r; npar r] = print_spaced [nrows r'; ncols r'; nout r'; nin r'; nloc r'; npar r']) in H.
  apply print_spaced_inj in H; [|reflexivity]. injection H as E1 E2 E3 E4 E5 E6.
  assert (R : rows r = rows r' /\ s = s').
  { pose proof (rows_length r W) as HR. pose proof (rows_length r' W') as HR'. pose proof (rows_width r W) as HC. pose proof (rows_width r' W') as HC'.
    assert (HL : List.length (rows r) = List.length (rows r')) by (unfold zlength in *; lia). rewrite <- E2 in HC'. clear - E HL HC HC'. revert E HL HC HC'.
    generalize (rows r') as m'. generalize (rows r) as m. induction m as [|x m IH]; intros [|y m'] E HL HC HC'; try discriminate.
    - cbn in E. auto.
    - cbn [map] in E. rewrite !in_lines_cons in E. inversion HC; subst. inversion HC'; subst. injection HL as HL.
      cmpx E; [|nonl; apply no_nl_spaced_cells..]. apply app_inv_head in H. apply spaced_inj in H; [|unfold zlength in *; lia]. destruct H as [-> _].
      destruct (IH m' E) as [-> ->]; auto. }
  destruct R as [R ->]. split; [|reflexivity]. pose proof (rows_det r r' W W' E1 E2 R) as M. destruct r, r'; cbn in *. now subst.
Qed.
Lemma code_parts level us us' n a b s s' : clear_union cfg us -> clear_union cfg us' -> 1 < n -> (us = [] <-> us' = []) ->
  nodes (part_idump level) (line (level + 1) (lit "|") ++ line (level + 1) (lit "V")) n us = Ok a ->
  nodes (part_idump level) (line (level + 1) (lit "|") ++ line (level + 1) (lit "V")) n us' = Ok b ->
  a ++ line (level + 1) [] ++ s = b ++ line (level + 1) [] ++ s' -> us = us' /\ s = s'.
Proof.
  intros Hu. revert us' n a b. induction Hu as [|r us Hr Hus IH]; intros [|r' us'] n a b Hu' Hn [H1 H2] Ea Eb E.
  - cbn in Ea, Eb. apply Ok_inj in Ea. apply Ok_inj in Eb. subst. cbn [app] in E. apply app_inv_head in E. auto.
  - specialize (H1 eq_refl). discriminate.
  - specialize (H2 eq_refl). discriminate.
  - cbn [nodes] in Ea, Eb. fold (nodes (part_idump level) (line (level + 1) (lit "|") ++ line (level + 1) (lit "V"))) in Ea, Eb.
    inv_bind Ea. inv_bind Ea. inv_bind Eb. inv_bind Eb. apply Ok_inj in Ea. apply Ok_inj in Eb. subst.
    inversion Hu' as [|? ? Hr' Hus']; subst. apply part_shape in E0; [|apply Hr]. apply part_shape in E2; [|apply Hr']. subst.
    unfold next_title in E. destruct (Z.eqb_spec n 1); [lia|]. cmpx E; [|nonl; apply no_nl_part_name..].
    apply app_inv_head in H. apply part_name_inj in H; auto. destruct H as [Et Ep].
    apply lines_inj in E; auto. destruct E as [-> E].
    destruct us as [|x2 xs], us' as [|y2 ys].
    + cbn in E1, E3. apply Ok_inj in E1. apply Ok_inj in E3. subst. cbn [app] in E. apply app_inv_head in E. subst. auto.
    + cbn in E1. apply Ok_inj in E1. subst. cbn [app] in E. cmp E. discriminate.
    + cbn in E3. apply Ok_inj in E3. subst. cbn [app] in E. cmp E. discriminate.
    + rewrite <- !app_assoc in E. apply app_inv_head in E. apply app_inv_head in E.
      eapply (IH (y2 :: ys) (n + 1)) in E; eauto; [destruct E as [-> ->]; auto|lia|]. split; discriminate.
Qed.
Lemma code_union : code osl_relation_idump (clear_union cfg).
Proof.
  intros u u' l a b s s' Hl Hu Hu' Ea Eb E. unfold osl_relation_idump in *. inv_bind Ea. inv_bind Eb. apply Ok_inj in Ea. apply Ok_inj in Eb. subst.
  cmpx E.
  2:{ destruct u; nonl. apply no_nl_title. } 2:{ destruct u'; nonl. apply no_nl_title. }
  destruct u as [|r u], u' as [|r' u']; [|discriminate|discriminate|].
  - cbn in E0, E1. apply Ok_inj in E0. apply Ok_inj in E1. subst. cbn [app] in E. apply app_inv_head in E. auto.
  - cbn [nodes] in E0, E1. fold (nodes (part_idump l) (line (l + 1) (lit "|") ++ line (l + 1) (lit "V"))) in E0, E1.
    inv_bind E0. inv_bind E0. inv_bind E1. inv_bind E1. apply Ok_inj in E0. apply Ok_inj in E1. subst.
    inversion Hu as [|? ? Hr Hus]; subst. inversion Hu' as [|? ? Hr' Hus']; subst.
    apply part_shape in E2; [|apply Hr]. apply part_shape in E4; [|apply Hr']. subst.
    apply app_inv_head in H. rewrite !title_ok in H by (apply Hr || apply Hr'). apply part_name_inj in H; auto. destruct H as [Et Ep].
    unfold next_title in E. cbn [Z.eqb Pos.eqb app] in E. rewrite <- !app_assoc in E. apply lines_inj in E; auto. destruct E as [-> E].
    destruct u as [|x2 xs], u' as [|y2 ys].
    + cbn in E3, E5. apply Ok_inj in E3. apply Ok_inj in E5. subst. cbn [app] in E. apply app_inv_head in E. subst. auto.
    + cbn in E3. apply Ok_inj in E3. subst. cbn [app] in E. cmp E. discriminate.
    + cbn in E5. apply Ok_inj in E5. subst. cbn [app] in E. cmp E. discriminate.
    + rewrite <- !app_assoc in E. apply app_inv_head in E. apply app_inv_head in E.
      eapply (code_parts l (x2 :: xs) (y2 :: ys) (1 + 1)) in E; eauto; [destruct E as [-> ->]; auto|lia|]. split; discriminate.
Qed.
Lemma code_list : code osl_relation_list_idump (Forall (clear_union cfg)).
Proof.
  apply (code_chain relation_list_node); [nonl|nonl|discriminate|]. intros n u u' l a b s s' Hl Hu Hu' Ea Eb E. unfold relation_list_node in *.
  inv_bind Ea. inv_bind Eb. apply Ok_inj in Ea. apply Ok_inj in Eb. subst. rewrite <- !app_assoc in E. apply app_inv_head in E. apply app_inv_head in E.
  eapply (code_union u u' (l + 1)); eauto; lia.
Qed.
Lemma code_vector : code osl_vector_idump (fun v => match v with Some v => wf_vec cfg v | None => True end).
Proof.
  intros v v' l a b s s' Hl Hv Hv' Ea Eb E. destruct v as [v|], v' as [v'|]; unfold osl_vector_idump in Ea, Eb; try (inv_bind Ea); try (inv_bind Eb);
    apply Ok_inj in Ea; apply Ok_inj in Eb; subst.
  - rewrite !precision_ok in E by (apply Hv || apply Hv').
    destruct Hv as (Hp & Hs & _), Hv' as (Hp' & Hs' & _). rewrite Hs in E0 at 1. rewrite Hs' in E1 at 1.
    apply (collected 0 (fun v => pad4 (print_Z v) ++ [c_sp])) in E0.
    2:{ intros i t t' Hi H. rewrite (aget_ok 0) in H by exact Hi. cbn [bind] in H. inv_bind H. apply Ok_inj in H. subst t'. apply int_print_text in E2. now subst. }
    apply (collected 0 (fun v => pad4 (print_Z v) ++ [c_sp])) in E1.
    2:{ intros i t t' Hi H. rewrite (aget_ok 0) in H by exact Hi. cbn [bind] in H. inv_bind H. apply Ok_inj in H. subst t'. apply int_print_text in E2. now subst. }
    subst. change (flat_map (fun v => pad4 (print_Z v) ++ [c_sp])) with spaced in E.
    cmpx E; [|unfold precision_text; nonl..]. apply app_inv_head in H. apply (f_equal (fun x => x ++ [])) in H. rewrite <- !app_assoc in H. apply precision_inj in H; auto. destruct H as [Ep _].
    cmp E. apply print_Z_inj in H. cmpx E; [|nonl; apply no_nl_spaced_cells..]. apply app_inv_head in H0.
    apply spaced_inj in H0; [|unfold zlength in *; lia]. destruct H0 as [Ev _]. cmp E. destruct v, v'; cbn in *; subst. auto.
  - cmpx E; [discriminate|nonl; apply no_nl_precision|nonl].
  - cmpx E; [discriminate|nonl|nonl; apply no_nl_precision].
  - cmp E. cmp E. auto.
Qed.
End CODES.
