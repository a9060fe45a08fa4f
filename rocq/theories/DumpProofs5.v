(** * DumpProofs5: the dumps of extensions, statements and scops can be told from each other *)
From Verif Require Import Base Spec RelSpec TextSpec IntModel IntProofs VectorModel RelationModel RelationProofs UtilModel StringsModel RelTextModel LoopLemmas
  UtilProofs TextInt RelTextProofs RelTextProofs2 PropExpr2 SaveProofs ExtModel ScopModel IrregModel DumpModel DumpSpec DumpProofs DumpProofs2 DumpProofs3 DumpProofs4.

(** ** Strings *)
Lemma a_word_no_nl w : a_word w -> no_nl w.
Proof. intros [_ H] Hin. rewrite Forall_forall in H. specialize (H _ Hin). discriminate. Qed.
Lemma words_no_nl l : Forall a_word l -> no_nl (flat_map (fun x => c_sp :: x) l).
Proof. intros H. apply no_nl_flat. revert H. apply Forall_impl. intros w Hw. apply no_nl_cons; [reflexivity|now apply a_word_no_nl]. Qed.
Lemma words_inj l l' : Forall a_word l -> Forall a_word l' ->
  flat_map (fun x => c_sp :: x) l = flat_map (fun x => c_sp :: x) l' -> l = l'.
Proof.
  intros H. revert l'. induction H as [|w l Hw Hl IH]; intros l' Hl' E; destruct Hl' as [|w' l' Hw' Hl']; try discriminate; [reflexivity|].
  cbn [flat_map app] in E. injection E as E. apply (f_equal (fun x => x ++ [c_nl])) in E. rewrite <- !app_assoc in E.
  assert (S : forall m : list str, exists c t, flat_map (fun x => c_sp :: x) m ++ [c_nl] = c :: t /\ is_space c = true).
  { intros [|x m]; cbn [flat_map app]; eauto. }
  destruct (S l) as (c & t & E1 & Hc), (S l') as (c' & t' & E2 & Hc'). rewrite E1, E2 in E.
  apply word_inj in E; auto; [|apply Hw|apply Hw']. destruct E as (-> & -> & ->). f_equal. apply IH; auto.
  rewrite <- E2 in E1. now apply app_inv_tail in E1.
Qed.
Lemma no_nl_strings_line s : clear_strings s ->
  no_nl (match s with
         | Some s => lit "+-- osl_strings_t:" ++ flat_map (fun x => c_sp :: x) (match s with Some l => l | None => [] end)
         | None => lit "+-- NULL strings"
         end).
Proof. intros [-> | (l & -> & H)]; nonl. now apply words_no_nl. Qed.
Lemma code_strings : code_str osl_strings_idump clear_strings.
Proof.
  intros x y l s s' Hl Hx Hy E. unfold osl_strings_idump in E. cmpx E; [|now apply no_nl_strings_line..]. cmp E. split; [|exact E].
  destruct Hx as [-> | (m & -> & Hm)], Hy as [-> | (m' & -> & Hm')]; try discriminate; [reflexivity|].
  apply app_inv_head in H. apply words_inj in H; auto. now subst.
Qed.
Lemma code_expression : code_str osl_strings_idump clear_expression.
Proof.
  assert (N : forall s, clear_expression s -> no_nl (match s with
         | Some s => lit "+-- osl_strings_t:" ++ flat_map (fun x => c_sp :: x) (match s with Some l => l | None => [] end)
         | None => lit "+-- NULL strings"
         end)).
  { intros s [-> | (e & -> & He)]; nonl. cbn [flat_map]. rewrite app_nil_r. apply no_nl_cons; [reflexivity|exact He]. }
  intros x y l s s' Hl Hx Hy E. unfold osl_strings_idump in E. cmpx E; [|now apply N..]. cmp E. split; [|exact E].
  destruct Hx as [-> | (m & -> & Hm)], Hy as [-> | (m' & -> & Hm')]; try discriminate; [reflexivity|].
  apply app_inv_head in H. cbn [flat_map] in H. rewrite !app_nil_r in H. now injection H as ->.
Qed.
Lemma code_body : code_str osl_body_idump (fun b => match b with Some b => clear_body b | None => True end).
Proof.
  intros x y l s s' Hl Hx Hy E. unfold osl_body_idump in E. destruct x as [x|], y as [y|]; rewrite <- !app_assoc in E; cmp E; try discriminate.
  - cmp E. destruct Hx as [A B], Hy as [A' B']. apply code_strings in E; [|lia|assumption..]. destruct E as [Ea E]. apply code_expression in E; [|lia|assumption..]. destruct E as [Eb E].
    cmp E. destruct x, y; cbn in *; subst. auto.
  - cmp E. auto.
Qed.
(** ** Interfaces *)
Lemma uri_inj k k' : uri_of k = uri_of k' -> k = k'.
Proof. destruct k, k'; intros E; try reflexivity; discriminate. Qed.
Lemma uri_no_nl k : no_nl (uri_of k).
Proof. destruct k; now apply no_nl_lit. Qed.
Definition library (i : interf) : Prop := i = osl_interface_of (if_kind i).
Lemma library_inj i i' : library i -> library i' -> if_uri i = if_uri i' -> i = i'.
Proof.
  unfold library. intros -> -> E. cbn [osl_interface_of if_uri if_kind] in E. injection E as E. apply uri_inj in E. now rewrite E.
Qed.
Lemma library_uri i : library i -> exists u, if_uri i = Some u /\ no_nl u.
Proof. intros ->. eexists. split; [reflexivity|]. apply uri_no_nl. Qed.
(** A line of the next level is not an empty line. *)
Lemma deeper l t t' : 0 <= l -> line (l + 2) [] ++ t <> line (l + 1) [] ++ t'.
Proof.
  intros Hl X. assert (E : line (l + 2) [] = line (l + 1) bar).
  { unfold line. rewrite !indent_times. replace (Z.to_nat (l + 2)) with (Z.to_nat (l + 1) + 1)%nat by lia. rewrite times_plus. now rewrite <- !app_assoc. }
  rewrite E in X. apply line_inj in X; [destruct X; discriminate|now apply no_nl_lit|apply no_nl_nil].
Qed.
Section CODES.
Context {cfg : config}.
Lemma nodes_cons {A} (f : Z -> A -> res str) sep n x xs :
  nodes f sep n (x :: xs) = (a <- f n x ;; b <- nodes f sep (n + 1) xs ;; Ok (a ++ match xs with [] => [] | _ => sep end ++ b)).
Proof. reflexivity. Qed.
Lemma code_nodes {A} (f : Z -> Z -> A -> res str) (sep : Z -> str) (P : A -> Prop) level xs : forall ys n a b s s',
  0 <= level -> (forall t t', sep level ++ t <> line (level + 1) [] ++ t') -> (forall n, 1 < n -> code (fun x l => f l n x) P) -> 1 < n ->
  Forall P xs -> Forall P ys ->
  nodes (f level) (sep level) n xs = Ok a -> nodes (f level) (sep level) n ys = Ok b ->
  match xs with [] => [] | _ => sep level end ++ a ++ line (level + 1) [] ++ s = match ys with [] => [] | _ => sep level end ++ b ++ line (level + 1) [] ++ s' ->
  xs = ys /\ s = s'.
Proof.
  induction xs as [|x xs IH]; intros [|y ys] n a b s s' Hlev Hsep Hf Hn Hx Hy Ea Eb E.
  - cbn in Ea, Eb. apply Ok_inj in Ea. apply Ok_inj in Eb. subst. cbn [app] in E. apply app_inv_head in E. auto.
  - cbn in Ea. apply Ok_inj in Ea. subst. cbn [app] in E. symmetry in E. now apply Hsep in E.
  - cbn in Eb. apply Ok_inj in Eb. subst. cbn [app] in E. now apply Hsep in E.
  - rewrite nodes_cons in Ea, Eb. inv_bind Ea. inv_bind Ea. inv_bind Eb. inv_bind Eb. apply Ok_inj in Ea. apply Ok_inj in Eb. subst.
    apply app_inv_head in E. rewrite <- !app_assoc in E. inversion Hx; subst. inversion Hy; subst.
    eapply (Hf n Hn x y level) in E; eauto. destruct E as [-> E].
    eapply (IH ys (n + 1)) in E; eauto; [destruct E as [-> ->]; auto|lia].
Qed.
Lemma code_interface : code osl_interface_idump (Forall library).
Proof.
  intros x y l a b s s' Hl Hx Hy Ea Eb E. unfold osl_interface_idump in *. inv_bind Ea. inv_bind Eb. apply Ok_inj in Ea. apply Ok_inj in Eb. subst.
  assert (N : forall x, Forall library x -> no_nl match x with i :: _ => lit "+-- osl_interface_t: URI = " ++ pr (if_uri i) | [] => lit "+-- NULL interface" end).
  { intros z Hz. destruct Hz as [|i z Hi Hz]; nonl. destruct (library_uri i Hi) as (u & -> & Hu). exact Hu. }
  cmpx E; [|now apply N..].
  destruct Hx as [|i x Hi Hx], Hy as [|i' y Hi' Hy]; [|discriminate|discriminate|].
  - cbn in E0, E1. apply Ok_inj in E0. apply Ok_inj in E1. subst. cbn [app] in E. apply app_inv_head in E. auto.
  - rewrite nodes_cons in E0, E1. inv_bind E0. inv_bind E0. inv_bind E1. inv_bind E1. apply Ok_inj in E0. apply Ok_inj in E1. subst.
    unfold interface_node, next_title in E2, E4. cbn [Z.eqb Pos.eqb] in E2, E4. apply Ok_inj in E2. apply Ok_inj in E4. subst. cbn [app] in E.
    assert (i = i').
    { apply library_inj; auto. destruct (library_uri i Hi) as (u & Eu & _), (library_uri i' Hi') as (u' & Eu' & _). apply app_inv_head in H. rewrite Eu, Eu' in *. cbn [pr] in H. now subst. }
    subst i'. rewrite <- !app_assoc in E.
    assert (A : forall t t', (line (l + 2) [] ++ line (l + 1) (lit "V")) ++ t <> line (l + 1) [] ++ t').
    { intros t t' X. rewrite <- app_assoc in X. now apply deeper in X. }
    assert (B : forall n, 1 < n -> code (fun x l => interface_node l n x) library).
    { intros n Hn j j' l' a b t t' Hl' Hj Hj' Ea Eb Ej. unfold interface_node, next_title in *. destruct (Z.eqb_spec n 1); [lia|].
      apply Ok_inj in Ea. apply Ok_inj in Eb. subst. destruct (library_uri j Hj) as (u & Eu & Hu), (library_uri j' Hj') as (u' & Eu' & Hu'). rewrite Eu, Eu' in Ej.
      cmpx Ej; [|nonl..]. apply app_inv_head in H0. subst. split; [|reflexivity]. apply library_inj; congruence. }
    destruct (code_nodes interface_node (fun l => line (l + 2) [] ++ line (l + 1) (lit "V")) library l x y (1 + 1) _ _ s s' Hl A B ltac:(lia) Hx Hy E3 E5) as [-> ->]; auto.
Qed.

(** ** Extensions *)
Lemma code_arrays : code_str osl_arrays_idump (fun a => match a with Some a => Forall (fun x => no_nl (snd x)) a | None => True end).
Proof.
  intros x y l s s' Hl Hx Hy E. unfold osl_arrays_idump in E. destruct x as [x|], y as [y|]; rewrite <- ?app_assoc in E; cmp E; try discriminate.
  - cmp E. apply app_inv_head in H0. apply print_Z_inj in H0. clear H.
    assert (R : x = y /\ s = s'); [|destruct R; subst; auto].
    assert (HL : List.length x = List.length y) by (unfold zlength in H0; lia). clear H0. revert y Hy HL E.
    induction Hx as [|p x Hp Hx IH]; intros y Hy HL E; destruct Hy as [|q y Hq Hy]; try discriminate.
    + cbn [flat_map app] in E. cmp E. auto.
    + cbn [flat_map] in E. cmp E. apply app_inv_head in H. apply num2_inj in H; [|reflexivity..]. destruct H as [H1 H]. apply app_inv_head in H.
      injection HL as HL. destruct (IH y Hy HL E) as [-> ->]. destruct p, q; cbn in *; subst; auto.
  - cmp E. auto.
Qed.
Lemma flatten_id t : no_nl t -> flatten t = t.
Proof.
  induction t as [|c t IH]; intros H; [reflexivity|]. cbn [flatten map]. fold (flatten t). rewrite IH by (intros X; apply H; now right).
  destruct (ceqb c c_nl) eqn:Ec; [|reflexivity]. elim H. left. now apply ceqb_eq in Ec.
Qed.
Definition clear_line (t : option (option str)) : Prop := match t with Some t => exists s, t = Some s /\ no_nl s | None => True end.
Lemma code_clay : code osl_clay_idump clear_line.
Proof.
  intros x y l a b s s' Hl Hx Hy Ea Eb E. destruct x as [x|], y as [y|]; cbn [clear_line] in *; try destruct Hx as (t & -> & Ht); try destruct Hy as (t' & -> & Ht');
    cbn [osl_clay_idump] in *; apply Ok_inj in Ea; apply Ok_inj in Eb; subst; cmp E; try discriminate.
  - cmp E. apply app_inv_head in H0. rewrite !flatten_id in H0 by assumption. subst. cmp E. auto.
  - cmp E. auto.
Qed.
Lemma code_comment : code osl_comment_idump clear_line.
Proof.
  intros x y l a b s s' Hl Hx Hy Ea Eb E. destruct x as [x|], y as [y|]; cbn [clear_line] in *; try destruct Hx as (t & -> & Ht); try destruct Hy as (t' & -> & Ht');
    cbn [osl_comment_idump] in *; apply Ok_inj in Ea; apply Ok_inj in Eb; subst; cmp E; try discriminate.
  - cmp E. apply app_inv_head in H0. rewrite !flatten_id in H0 by assumption. subst. cmp E. auto.
  - cmp E. auto.
Qed.
Lemma code_textual : code osl_textual_idump (fun t => match t with Some t => exists s, t = Some s /\ no_nl s /\ zlength s <= 40 | None => True end).
Proof.
  intros x y l a b s s' Hl Hx Hy Ea Eb E.
  assert (F : forall t, no_nl t -> zlength t <= 40 -> shortened (flatten t) = t).
  { intros t Ht Hz. rewrite flatten_id by exact Ht. unfold shortened. destruct (Z.ltb_spec 40 (zlength t)); [lia|reflexivity]. }
  destruct x as [x|], y as [y|]; try destruct Hx as (t & -> & Ht & Hz); try destruct Hy as (t' & -> & Ht' & Hz');
    cbn [osl_textual_idump] in *; apply Ok_inj in Ea; apply Ok_inj in Eb; subst; cmp E; try discriminate.
  - apply app_inv_head in H. rewrite !F in H by assumption. subst. cmp E. auto.
  - cmp E. auto.
Qed.
Lemma code_null : code_str osl_null_idump (fun _ => True).
Proof.
  intros x y l s s' Hl Hx Hy E. unfold osl_null_idump in E. destruct x as [[]|], y as [[]|]; cmp E; try discriminate; cmp E; auto.
Qed.
Lemma code_coordinates : code_str osl_coordinates_idump (fun c => match c with Some c => one_line (co_name c) | None => True end).
Proof.
  intros x y l s s' Hl Hx Hy E. unfold osl_coordinates_idump in E. destruct x as [x|], y as [y|]; rewrite <- ?app_assoc in E; cmp E; try discriminate.
  - destruct x as [n a b c e i], y as [n' a' b' c' e' i']. cbn [co_name co_line_start co_line_end co_column_start co_column_end co_indent] in *.
    cmpx E; [|destruct n; nonl; exact Hx|destruct n'; nonl; exact Hy]. assert (n = n').
    { destruct n, n'; try discriminate; [|reflexivity]. apply app_inv_head in H0. now subst. }
    cmp E. apply app_inv_head in H2. apply num_inj in H2; [|reflexivity..]. destruct H2 as [-> H2]. apply app_inv_head in H2.
    apply num_inj in H2; [|reflexivity..]. destruct H2 as [-> H2]. apply app_inv_head in H2. apply num_inj in H2; [|reflexivity..]. destruct H2 as [-> H2]. apply app_inv_head in H2.
    apply num_inj in H2; [|reflexivity..]. destruct H2 as [-> H2]. cmp E. apply app_inv_head in H3. apply print_Z_inj in H3. cmp E. subst. auto.
  - cmp E. auto.
Qed.
Lemma code_scatnames : code_str osl_scatnames_idump (fun c => match c with Some c => clear_strings c | None => True end).
Proof.
  intros x y l s s' Hl Hx Hy E. unfold osl_scatnames_idump in E. destruct x as [x|], y as [y|]; rewrite <- ?app_assoc in E; cmp E; try discriminate.
  - cmp E. apply code_strings in E; [|lia|assumption..]. destruct E as [-> E]. cmp E. auto.
  - cmp E. auto.
Qed.
Lemma commas_inj {A} (f : A -> Z) l l' : List.length l = List.length l' -> flat_map (fun x => comma (f x)) l = flat_map (fun x => comma (f x)) l' -> map f l = map f l'.
Proof.
  intros Hl E. assert (F : forall m, flat_map (fun x => comma (f x)) m = flat_map (fun v => print_Z v ++ lit ", ") (map f m)).
  { induction m as [|x m IH]; [reflexivity|]. cbn [flat_map map]. now rewrite IH. }
  rewrite !F in E. apply (nums_inj print_Z (lit ", ") (map f l) (map f l') [] []); [|reflexivity|discriminate|now rewrite !map_length|now rewrite E].
  intros a b t t' H H'. now apply num_inj.
Qed.
Lemma no_nl_commas {A} (f : A -> Z) l : no_nl (flat_map (fun x => comma (f x)) l).
Proof. apply no_nl_flat_all. intros x. unfold comma. nonl. Qed.
Lemma code_scatinfos : code_str osl_scatinfos_idump (fun _ => True).
Proof.
  intros x y l s s' Hl _ _ E. unfold osl_scatinfos_idump in E. destruct x as [x|], y as [y|]; rewrite <- ?app_assoc in E; cmp E; try discriminate.
  - cmp E. apply app_inv_head in H0. apply print_Z_inj in H0. assert (HL : List.length x = List.length y) by (unfold zlength in H0; lia).
    cmp E. cmpx E; [|nonl; apply no_nl_commas..]. apply app_inv_head in H2. apply commas_inj in H2; [|exact HL].
    cmp E. cmpx E; [|nonl; apply no_nl_commas..]. apply app_inv_head in H4. apply commas_inj in H4; [|exact HL].
    cmp E. cmpx E; [|nonl; apply no_nl_commas..]. apply app_inv_head in H6. apply commas_inj in H6; [|exact HL]. cmp E. split; [|exact E]. f_equal.
    clear - HL H2 H4 H6. revert y HL H2 H4 H6. induction x as [|p x IH]; intros [|q y] HL H2 H4 H6; try discriminate; [reflexivity|].
    cbn [map] in *. injection HL as HL. injection H2 as A1 A2. injection H4 as B1 B2. injection H6 as C1 C2. f_equal; [|now apply IH].
    destruct p, q; cbn in *; now subst.
  - cmp E. auto.
Qed.
Lemma code_extbody : code_str osl_extbody_idump (fun e => match e with Some e => match eb_body e with Some b => clear_body b | None => True end | None => True end).
Proof.
  intros x y l s s' Hl Hx Hy E. unfold osl_extbody_idump in E. destruct x as [[x b]|], y as [[y b']|]; cbn [eb_body eb_access] in *; rewrite <- ?app_assoc in E; cmp E; try discriminate.
  - cmp E. apply app_inv_head in H0. apply print_Z_inj in H0. clear H.
    assert (R : x = y /\ osl_body_idump b l ++ line (l + 1) [] ++ s = osl_body_idump b' l ++ line (l + 1) [] ++ s').
    { assert (HL : List.length x = List.length y) by (unfold zlength in H0; lia). clear - E HL. revert y HL E. induction x as [|p x IH]; intros [|q y] HL E; try discriminate; [now split|].
      cbn [flat_map] in E. cmp E. apply app_inv_head in H. apply num_inj in H; [|reflexivity..]. destruct H as [H1 H]. apply app_inv_head in H. apply print_Z_inj in H.
      injection HL as HL. destruct (IH y HL E) as [-> E']. destruct p, q; cbn in *; subst; auto. }
    destruct R as [-> R]. apply code_body in R; [|assumption..]. destruct R as [-> R]. cmp R. auto.
  - cmp E. auto.
Qed.
Lemma pr_inj s s' : clear_text s -> clear_text s' -> pr s = pr s' -> s = s'.
Proof. intros [_ H] [_ H'] E. destruct s as [s|], s' as [s'|]; cbn [pr] in E; subst; try reflexivity; contradiction. Qed.
Lemma code_loop : code osl_loop_idump (Forall (fun x => clear_text (lo_iter x) /\ clear_text (lo_private x) /\ clear_text (lo_user x))).
Proof.
  apply (code_chain loop_node); [nonl|nonl|discriminate|]. intros n x y l a b s s' Hl (Hi & Hp & Hu) (Hi' & Hp' & Hu') Ea Eb E. unfold loop_node in *.
  apply Ok_inj in Ea. apply Ok_inj in Eb. subst. rewrite <- !app_assoc in E. apply app_inv_head in E. cmp E.
  destruct x as [i st pv d u], y as [i' st' pv' d' u']. cbn [lo_iter lo_stmts lo_private lo_directive lo_user] in *.
  cmpx E; [|nonl; match goal with H : clear_text ?x |- one_line ?x => apply H end..]. apply app_inv_head in H0. apply pr_inj in H0; auto.
  cmp E. apply app_inv_head in H1. apply print_Z_inj in H1.
  cmpx E; [|nonl; apply no_nl_flat_all; intros v; nonl..]. apply app_inv_head in H2.
  apply (f_equal (fun x => x ++ [])) in H2. apply (nums_inj print2 (lit ", ")) in H2; [|intros ? ? ? ?; apply num2_inj|reflexivity|discriminate|unfold zlength in H1; lia].
  destruct H2 as [H2 _].
  cmpx E; [|nonl; match goal with H : clear_text ?x |- one_line ?x => apply H end..]. apply app_inv_head in H3. apply pr_inj in H3; auto.
  cmp E. apply app_inv_head in H4. apply print_Z_inj in H4.
  cmpx E; [|nonl; match goal with H : clear_text ?x |- one_line ?x => apply H end..]. apply app_inv_head in H5. apply pr_inj in H5; auto. subst. auto.
Qed.
Lemma code_unroll : code osl_pluto_unroll_idump (Forall (fun x => clear_text (un_iter x))).
Proof.
  apply (code_chain unroll_node); [nonl|nonl|discriminate|]. intros n x y l a b s s' Hl Hi Hi' Ea Eb E. unfold unroll_node in *.
  apply Ok_inj in Ea. apply Ok_inj in Eb. subst. rewrite <- !app_assoc in E. apply app_inv_head in E. cmp E.
  destruct x as [i j f], y as [i' j' f']. cbn [un_iter un_jam un_factor] in *.
  cmpx E; [|nonl; match goal with H : clear_text ?x |- one_line ?x => apply H end..]. apply app_inv_head in H0. apply pr_inj in H0; auto.
  cmp E. apply app_inv_head in H1. apply print_Z_inj in H1. cmp E. apply app_inv_head in H2. apply print_Z_inj in H2.
  destruct j, j'; try discriminate; subst; auto.
Qed.
End CODES.
