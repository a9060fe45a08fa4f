(** * PropExt: properties C32, C33 and C34 (bodies and extensions) *)
From Coq Require Import ZifyBool ZifyNat.
From Verif Require Import Base IntModel VectorModel RelationModel UtilModel StringsModel RelTextModel
  TextSpec Spec RelSpec LoopLemmas TextInt UtilProofs UtilProofs2 PropStrings RelTextProofs RelTextProofs2 RelTextProofs4
  PropUtil ExtModel ExtSpec ExtProofs.

(** ** Statement bodies (C34) *)
Lemma plain_of_words l : Forall (word_string 2047) l -> Forall plain_string l.
Proof. apply Forall_impl. intros x H. apply (word_plain 2047 x H). lia. Qed.

Lemma body_item b text : body_ok b -> osl_body_sprint (Some b) = Ok text ->
  item osl_body_sread b text.
Proof.
  intros (its & e & -> & Hc & Hi & He) H before after Hb. unfold osl_body_sprint in H. cbn [bo_iterators bo_expression osl_strings_size] in H.
  unfold osl_strings_sprint in H. cbn [elems sprint_elems] in H.
  rewrite sprint_elems_ok in H by now apply plain_of_words.
  pose proof He as (_ & _ & Hel & _). rewrite (store_ok e) in H by lia. cbn [bind] in H. unfold osl_body_sread.
  destruct (Z.ltb_spec 0 (zlength its)) as [Hlt|Hge]; cbn [bind] in H; apply Ok_inj in H; subst text; reads.
  - destruct (Z.ltb_spec 0 (zlength its)) as [_|X]; [|lia]. reads.
    rewrite strings_sread_ok; [|now apply plain_of_words|intros ->; cbn in Hlt; lia]. cbn [bind]. reads. gap [c_nl].
  - destruct (Z.ltb_spec 0 (zlength its)) as [X|_]; [lia|]. cbn [bind]. reads.
    assert (its = []) as -> by (destruct its; [reflexivity|unfold zlength in Hge; cbn in Hge; lia]). gap [c_nl].
Qed.
Lemma body_prints b : body_ok b -> exists text, osl_body_sprint (Some b) = Ok text.
Proof.
  intros (its & e & -> & Hc & Hi & He). unfold osl_body_sprint, osl_strings_sprint. cbn [bo_iterators bo_expression osl_strings_size elems sprint_elems].
  rewrite sprint_elems_ok by now apply plain_of_words.
  destruct He as (_ & _ & Hel & _). rewrite (store_ok e) by lia. cbn [bind].
  destruct (0 <? zlength its); cbn [bind]; eauto.
Qed.

Theorem C34_body_roundtrip : forall b, body_ok b ->
  roundtrip (t <- osl_body_sprint (Some b) ;; Ok (Some t)) osl_body_sread b /\
  osl_body_equal (Some b) (Some b) = true /\ osl_body_equal (osl_body_clone (Some b)) (Some b) = true.
Proof.
  intros b H. destruct (body_prints b H) as [t Ht]. split; [|split].
  - exists t. rewrite Ht. split; [reflexivity|]. now apply (body_item b t).
  - destruct b as [i e]. cbn. apply andb_true_iff. split; [destruct i|destruct e]; try reflexivity; now apply C29_equal.
  - destruct b as [i e]. cbn -[osl_strings_clone osl_strings_equal]. rewrite !C29_clone_equal. reflexivity.
Qed.
Print Assumptions C34_body_roundtrip.

Lemma word_lit n x : x <> [] -> (List.length x <= n)%nat -> forallb is_tok x = true -> word_string n x.
Proof.
  intros H1 H2 H3. split; [assumption|]. split; [assumption|]. intros c Hc. rewrite forallb_forall in H3.
  specialize (H3 c Hc). unfold is_tok in H3. apply andb_true_iff in H3 as [A B]. apply negb_true_iff in A, B.
  split; [assumption|]. now apply ceqb_neq.
Qed.
Lemma line_lit n x : (List.length x <= n)%nat -> forallb in_line x = true ->
  match x with [] => False | c :: _ => is_space c = false end -> line_string n x.
Proof.
  intros H2 H3 H4. rewrite forallb_forall in H3. repeat split; try assumption;
    intros Hin; specialize (H3 _ Hin); discriminate.
Qed.
Ltac wlit := apply word_lit; [discriminate|cbn; lia|reflexivity].
Ltac llit := apply line_lit; [cbn; lia|reflexivity|reflexivity].

Example C34_hyp : body_ok (Body (Some (Some [lit "i"; lit "j"])) (Some (Some [lit "A[i] = i * j;"]))).
Proof.
  eexists. eexists. split; [reflexivity|]. split; [cbv; reflexivity|].
  split; [constructor; [wlit|constructor; [wlit|constructor]]|llit].
Qed.
Example C34_ex : osl_body_sprint (Some (Body (Some (Some [lit "i"; lit "j"])) (Some (Some [lit "A[i] = i * j;"]))))
  = Ok (ln (lit "# Number of original iterators") ++ ln (lit "2") ++ ln (lit "# List of original iterators")
        ++ ln (lit "i j") ++ ln (lit "# Statement body expression") ++ ln (lit "A[i] = i * j;")).
Proof. vm_compute. reflexivity. Qed.

(** Equality of bodies is exact. *)
Definition same_strings (a b : option strings) : Prop :=
  match a, b with None, None => True | Some x, Some y => elems x = elems y | _, _ => False end.
Lemma strings_equal_iff a b : osl_strings_equal a b = true <-> same_strings a b.
Proof. destruct a as [a|], b as [b|]; try (cbn; split; (discriminate || tauto)). apply C29_equal. Qed.
Theorem C34_equal_exact : forall a b, osl_body_equal (Some a) (Some b) = true <->
  same_strings (bo_iterators a) (bo_iterators b) /\ same_strings (bo_expression a) (bo_expression b).
Proof. intros a b. cbn [osl_body_equal]. now rewrite andb_true_iff, !strings_equal_iff. Qed.
Print Assumptions C34_equal_exact.

(** A body made of several expressions comes back as one expression. *)
Theorem C34_several_expressions_refuted : exists b text b',
  osl_body_sprint (Some b) = Ok text /\ osl_body_sread text = Ok (b', [c_nl]) /\
  osl_body_equal (Some b) (Some b') = false.
Proof.
  exists (Body (Some (Some [lit "i"])) (Some (Some [lit "x=1;"; lit "y=2;"]))). eexists. eexists.
  split; [vm_compute; reflexivity|]. split; vm_compute; reflexivity.
Qed.
Print Assumptions C34_several_expressions_refuted.
(** '#' starts a comment, even inside the expression; blanks at the beginning are lost. *)
Theorem C34_hash_refuted : exists b text b' rest,
  osl_body_sprint (Some b) = Ok text /\ osl_body_sread text = Ok (b', rest) /\
  osl_body_equal (Some b) (Some b') = false.
Proof.
  exists (Body (Some (Some [])) (Some (Some [lit "x = '#';"]))). eexists. eexists. eexists.
  split; [vm_compute; reflexivity|]. split; vm_compute; reflexivity.
Qed.
Print Assumptions C34_hash_refuted.
(** A body without expression is printed as a text that gives the body of whatever follows. *)
Theorem C34_empty_refuted : exists text b' rest,
  osl_body_sprint (Some (Body (Some (Some [])) (Some (Some [])))) = Ok text /\
  osl_body_sread (text ++ lit "</body>" ++ [c_nl]) = Ok (b', rest) /\
  bo_expression b' = Some (Some [lit "</body>"]).
Proof. eexists. eexists. eexists. split; [vm_compute; reflexivity|]. split; vm_compute; reflexivity. Qed.
Print Assumptions C34_empty_refuted.

(** ** Extended bodies *)
Lemma pairs_ok l : Forall (fun a => c_int (fst a) /\ c_int (snd a)) l -> forall before after, blank_text before ->
  exists gap, blank_text gap /\
    read_pairs (List.length l) (before ++ concat (map (fun a => print_Z (fst a) ++ [c_sp] ++ lnZ (snd a)) l) ++ after)
    = Ok (l, gap ++ after).
Proof.
  intros H.
  apply (many_ok (fun s => '(a, s) <- osl_util_read_int_s s ;; '(b, s) <- osl_util_read_int_s s ;; Ok ((a, b), s)) read_pairs).
  - reflexivity.
  - intros k s. cbn [read_pairs]. destruct (osl_util_read_int_s s) as [[a s1]| | |]; cbn [bind]; try reflexivity.
    destruct (osl_util_read_int_s s1) as [[b s2]| | |]; reflexivity.
  - apply forall2_map. revert H. apply Forall_impl. intros [a b] [Ha Hb] before after Hbl. cbn [fst snd] in *.
    reads. gap [c_nl].
Qed.

Theorem C33_extbody_roundtrip : forall e, extbody_ok e ->
  roundtrip (osl_extbody_sprint (Some e)) osl_extbody_sread e /\ osl_extbody_equal (Some e) (Some e) = true.
Proof.
  intros [acc bd] (Hc & Ha & b & Hb & Hok). cbn [eb_access eb_body] in *. subst bd. split.
  - destruct (body_prints b Hok) as [tb Hb]. eexists. split.
    + unfold osl_extbody_sprint. cbn [eb_access eb_body].
      rewrite (print_all_ok _ (fun a => print_Z (fst a) ++ [c_sp] ++ lnZ (snd a))) by (apply Forall_forall; reflexivity).
      rewrite Hb. cbn [bind]. reflexivity.
    + intros before after Hbl. unfold osl_extbody_sread. reads. rewrite count_neg, count_nat.
      match goal with |- context [c_nl :: ?h ++ concat _ ++ _] => set (hd := h) end.
      assert (Hh : blank_text (c_nl :: hd)) by (subst hd; destruct (0 <? zlength acc); blank).
      destruct (pairs_ok acc Ha (c_nl :: hd) (tb ++ after) Hh) as (g & Hg & E).
      match goal with |- context [read_pairs ?n ?x] => replace (read_pairs n x) with (Ok (acc, g ++ tb ++ after)) by (symmetry; exact E) end.
      cbn [bind].
      destruct (body_item b tb Hok Hb g after Hg) as (g' & Hg' & E'). rewrite E'. cbn [bind]. gap g'.
  - cbn [osl_extbody_equal eb_access eb_body]. rewrite Z.eqb_refl. cbn [negb].
    replace (all_found pair_eqb acc acc) with true; [apply (C34_body_roundtrip b Hok)|].
    symmetry. apply forallb_forall. intros [x y] Hx. apply existsb_exists. exists (x, y). split; [assumption|].
    unfold pair_eqb. cbn. now rewrite !Z.eqb_refl.
Qed.
Print Assumptions C33_extbody_roundtrip.

(** ** Arrays (C32) *)
Lemma arrays_item x : c_int (fst x) /\ word_string 2034 (snd x) ->
  item (fun s => '(id, s) <- osl_util_read_int_s s ;; '(name, s) <- osl_util_read_string_s s ;; Ok ((id, name), s))
    x (print_Z (fst x) ++ [c_sp] ++ ln (snd x)).
Proof. destruct x as [id name]. intros [Hi Hn] before after Hb. cbn [fst snd] in *. reads. gap [c_nl]. Qed.
Theorem C32_roundtrip : forall a, arrays_ok a ->
  roundtrip (osl_arrays_sprint (Some a)) osl_arrays_sread a.
Proof.
  intros a (Hc & Ha). eexists. split.
  - unfold osl_arrays_sprint. rewrite (print_all_ok _ (fun x => print_Z (fst x) ++ [c_sp] ++ ln (snd x))).
    + cbn [bind]. reflexivity.
    + revert Ha. apply Forall_impl. intros x (Hi & _ & Hl & _). apply store_ok. unfold ln. rewrite !app_length. cbn [List.length].
      pose proof (int_length _ Hi). lia.
  - intros before after Hb. unfold osl_arrays_sread. reads. rewrite count_neg, count_nat.
    match goal with |- context [c_nl :: ?h ++ concat _ ++ _] => set (hd := h) end.
    assert (Hh : blank_text (c_nl :: hd)) by (subst hd; destruct (zlength a =? 0); blank).
    apply (many_ok (fun s => '(id, s) <- osl_util_read_int_s s ;; '(name, s) <- osl_util_read_string_s s ;; Ok ((id, name), s)) read_arrays) with (before := c_nl :: hd).
    + reflexivity.
    + intros k s. cbn [read_arrays]. destruct (osl_util_read_int_s s) as [[i s1]| | |]; cbn [bind]; try reflexivity.
      destruct (osl_util_read_string_s s1) as [[b s2]| | |]; reflexivity.
    + apply forall2_map. revert Ha. apply Forall_impl. exact arrays_item.
    + assumption.
Qed.
Print Assumptions C32_roundtrip.
Example C32_hyp : arrays_ok [(1, lit "A"); (7, lit "tmp_2")].
Proof. split; [reflexivity|]. constructor; [split; [cbv; split; discriminate|wlit]|constructor; [split; [cbv; split; discriminate|wlit]|constructor]]. Qed.

Lemma array_eqb_iff x y : array_eqb x y = true <-> x = y.
Proof.
  destruct x as [i s], y as [j t]. unfold array_eqb. cbn. rewrite andb_true_iff, Z.eqb_eq, str_eqb_eq.
  split; [intros [-> ->]; reflexivity|intros H; injection H; auto].
Qed.
Lemma all_found_iff {A} (eqb : A -> A -> bool) : (forall x y, eqb x y = true <-> x = y) ->
  forall a b, all_found eqb a b = true <-> incl a b.
Proof.
  intros E a b. unfold all_found. rewrite forallb_forall. split.
  - intros H x Hx. specialize (H x Hx). apply existsb_exists in H as (y & Hy & Exy). apply E in Exy. now subst.
  - intros H x Hx. apply existsb_exists. exists x. split; [now apply H|now apply E].
Qed.

(** Equality accepts clones, and, for tables without repeated entries, exactly
    the tables with the same entries in any order. *)
Theorem C32_clone_equal : forall a, osl_arrays_clone (Some a) = Ok (Some a) /\ osl_arrays_equal (Some a) (Some a) = true.
Proof.
  intros a. split.
  - cbn [osl_arrays_clone]. rewrite copy_array_ok; [reflexivity|]. intros [id n] _. reflexivity.
  - cbn. rewrite Z.eqb_refl. cbn. apply (all_found_iff _ array_eqb_iff). apply incl_refl.
Qed.
Print Assumptions C32_clone_equal.
Theorem C32_equal : forall a b, NoDup a -> NoDup b ->
  (osl_arrays_equal (Some a) (Some b) = true <-> same_entries a b).
Proof.
  intros a b Na Nb. cbn. destruct (Z.eqb_spec (zlength a) (zlength b)) as [E|E]; cbn.
  - rewrite (all_found_iff _ array_eqb_iff). split.
    + intros Hi x. split; [apply Hi|]. apply (NoDup_length_incl Na); [unfold zlength in E; lia|assumption].
    + intros H x Hx. now apply H.
  - split; [discriminate|]. intros H. exfalso. apply E. unfold zlength. f_equal. apply Nat.le_antisymm.
    + apply NoDup_incl_length; [assumption|]. intros x Hx. now apply H.
    + apply NoDup_incl_length; [assumption|]. intros x Hx. now apply H.
Qed.
Print Assumptions C32_equal.
(** Whatever the tables, equality requires the same size and every entry of the first in the second. *)
Theorem C32_equal_any : forall a b, osl_arrays_equal (Some a) (Some b) = true <->
  List.length a = List.length b /\ incl a b.
Proof.
  intros a b. cbn. destruct (Z.eqb_spec (zlength a) (zlength b)) as [E|E]; cbn; unfold zlength in E.
  - rewrite (all_found_iff _ array_eqb_iff). split; [intros; split; [lia|assumption]|tauto].
  - split; [discriminate|]. intros [H _]. lia.
Qed.
Print Assumptions C32_equal_any.
(** Different tables are accepted, in one direction only, when an entry is repeated. *)
Theorem C32_equal_refuted : exists a b,
  osl_arrays_equal (Some a) (Some b) = true /\ osl_arrays_equal (Some b) (Some a) = false /\ a <> b.
Proof.
  exists [(1, lit "A"); (1, lit "A")], [(1, lit "A"); (2, lit "B")].
  split; [reflexivity|]. split; [reflexivity|discriminate].
Qed.
Print Assumptions C32_equal_refuted.
Example C32_equal_ex : osl_arrays_equal (Some [(1, lit "A"); (2, lit "B")]) (Some [(2, lit "B"); (1, lit "A")]) = true.
Proof. reflexivity. Qed.

Theorem C32_add : forall a id name,
  exists a', osl_arrays_add (Some a) id (Some name) = (Some a', Z.of_nat (List.length a')) /\ a' = a ++ [(id, name)].
Proof.
  intros a id name. eexists. split; [|reflexivity]. cbn. f_equal. unfold zlength. rewrite app_length. cbn. lia.
Qed.
Print Assumptions C32_add.

Lemma index_of_ok p P : (forall x, p x = true <-> P x) -> forall a, first_index P a (index_of p a 0).
Proof.
  intros HP.
  assert (G : forall a k, 0 <= k -> exists i, index_of p a k = k + i /\ first_index P a i).
  { induction a as [|x a IH]; intros k Hk; cbn [index_of].
    - exists 0. split; [lia|]. right. split; [reflexivity|]. intros x [].
    - destruct (p x) eqn:E.
      + exists 0. split; [lia|]. left. split; [cbn; lia|]. split.
        * exists x. split; [reflexivity|]. now apply HP.
        * intros j y Hj. lia.
      + destruct (IH (k + 1) ltac:(lia)) as (i & Hi & F). exists (i + 1). split; [lia|].
        assert (Nx : ~ P x) by (intros H; apply HP in H; congruence).
        destruct F as [(F1 & (y & F2 & F3) & F4)|[F1 F2]].
        * left. split; [cbn [List.length]; lia|]. split.
          { exists y. split; [|assumption]. replace (Z.to_nat (i + 1)) with (S (Z.to_nat i)) by lia. assumption. }
          intros j z Hj Hz. destruct (Z.eq_dec j 0) as [->|Hj0]; [cbn in Hz; injection Hz as <-; assumption|].
          replace (Z.to_nat j) with (S (Z.to_nat (j - 1))) in Hz by lia. apply (F4 (j - 1) z); [lia|exact Hz].
        * right. split; [cbn [List.length]; lia|]. intros z [<-|Hz]; auto. }
  intros a. destruct (G a 0 ltac:(lia)) as (i & -> & H). now rewrite Z.add_0_l.
Qed.
Theorem C32_index_from_id : forall a id,
  first_index (fun x => fst x = id) a (osl_arrays_get_index_from_id (Some a) id).
Proof. intros a id. apply index_of_ok. intros x. apply Z.eqb_eq. Qed.
Print Assumptions C32_index_from_id.
Theorem C32_index_from_name : forall a name,
  first_index (fun x => snd x = name) a (osl_arrays_get_index_from_name (Some a) (Some name)).
Proof. intros a name. apply index_of_ok. intros x. apply str_eqb_eq. Qed.
Print Assumptions C32_index_from_name.
Example C32_index_ex : osl_arrays_get_index_from_id (Some [(4, lit "A"); (2, lit "B"); (2, lit "C")]) 2 = 1
  /\ osl_arrays_get_index_from_name (Some [(4, lit "A"); (2, lit "B")]) (Some (lit "Z")) = 2.
Proof. split; reflexivity. Qed.

(** Table of names: position id-1 holds the name of array id, the others a dummy name. *)
Lemma max_id_spec a : a <> [] -> (exists x, In x a /\ fst x = max_id a) /\ forall x, In x a -> fst x <= max_id a.
Proof.
  destruct a as [|x a]; [congruence|]. intros _. cbn [max_id].
  assert (G : forall l m, let r := fold_left (fun m y => if m <? fst y then fst y else m) l m in
     (r = m \/ exists y, In y l /\ fst y = r) /\ m <= r /\ forall y : Z * str, In y l -> fst y <= r).
  { induction l as [|y l IH]; intros m; cbn [fold_left].
    - split; [now left|]. split; [lia|]. intros y [].
    - destruct (IH (if m <? fst y then fst y else m)) as (A & B & C). split; [|split].
      + destruct A as [A|(z & Hz & Ez)]; [|right; exists z; split; [now right|assumption]].
        destruct (m <? fst y) eqn:E; [right; exists y; split; [now left|now rewrite A]|left; assumption].
      + destruct (m <? fst y) eqn:E; lia.
      + intros z [<-|Hz]; [|auto]. destruct (m <? fst y) eqn:E; lia. }
  destruct (G a (fst x)) as (A & B & C). split.
  - destruct A as [A|(y & Hy & Ey)]; [exists x; split; [now left|now rewrite A]|exists y; split; [now right|assumption]].
  - intros y [<-|Hy]; auto.
Qed.
Lemma nth_list_set {A} n (v : A) l k : (n < List.length l)%nat ->
  nth_error (list_set n v l) k = if Nat.eqb k n then Some v else nth_error l k.
Proof.
  revert n k. induction l as [|x l IH]; intros n k Hn; [cbn in Hn; lia|]. destruct n as [|n]; cbn [list_set].
  - destruct k; reflexivity.
  - destruct k; [reflexivity|]. cbn [nth_error]. rewrite IH by (cbn in Hn; lia). reflexivity.
Qed.
Lemma length_list_set {A} n (v : A) l : List.length (list_set n v l) = List.length l.
Proof. revert n. induction l; intros [|n]; cbn; auto. Qed.
Lemma put_names_ok a : forall l, (forall x, In x a -> 1 <= fst x <= Z.of_nat (List.length l)) -> NoDup (map fst a) ->
  exists l', put_names a l = Ok l' /\ List.length l' = List.length l /\
    (forall id name, In (id, name) a -> nth_error l' (Z.to_nat (id - 1)) = Some name) /\
    (forall k, 1 <= k -> ~ In k (map fst a) -> nth_error l' (Z.to_nat (k - 1)) = nth_error l (Z.to_nat (k - 1))).
Proof.
  induction a as [|[id name] a IH]; intros l Hr Hd; cbn [put_names].
  - exists l. repeat split; auto. intros ? ? [].
  - pose proof (Hr (id, name) (or_introl eq_refl)) as Hi. cbn [fst] in Hi. unfold aset.
    destruct ((0 <=? id - 1) && (id - 1 <? Z.of_nat (List.length l))) eqn:E; [|lia]. cbn [bind].
    inversion Hd as [|? ? Hnin Hd']; subst. cbn [map fst] in *.
    destruct (IH (list_set (Z.to_nat (id - 1)) name l)) as (l' & H1 & H2 & H3 & H4).
    + intros x Hx. rewrite length_list_set. apply Hr. now right.
    + assumption.
    + exists l'. rewrite length_list_set in H2. repeat split; auto.
      * intros i n [X|Hin]; [injection X as <- <-|auto]. rewrite H4 by (lia || assumption).
        rewrite nth_list_set by lia. now rewrite Nat.eqb_refl.
      * intros k Hk Hnk. rewrite H4 by (auto; intros X; apply Hnk; now right).
        rewrite nth_list_set by lia. destruct (Nat.eqb_spec (Z.to_nat (k - 1)) (Z.to_nat (id - 1))) as [X|X]; [|reflexivity].
        exfalso. apply Hnk. left. cbn. lia.
Qed.
Theorem C32_to_strings : forall a m, a <> [] -> (forall x, In x a -> 1 <= fst x <= m) -> In m (map fst a) -> NoDup (map fst a) ->
  exists l, osl_arrays_to_strings (Some a) = Ok (Some (Some l)) /\ Z.of_nat (List.length l) = m /\
    (forall id name, In (id, name) a -> nth_error l (Z.to_nat (id - 1)) = Some name) /\
    (forall k, 1 <= k <= m -> ~ In k (map fst a) -> nth_error l (Z.to_nat (k - 1)) = Some (lit "Dummy" ++ print_Z k)).
Proof.
  intros a m Hne Hr Hm Hd. destruct (max_id_spec a Hne) as [(x & Hx & Ex) Hmax].
  assert (Em : max_id a = m).
  { apply in_map_iff in Hm as (y & Ey & Hy). specialize (Hmax y Hy). specialize (Hr x Hx). lia. }
  assert (1 <= m) by (specialize (Hr x Hx); lia).
  destruct (C29_generate (lit "Dummy") m ltac:(lia)) as (s & Hs & Hsz & Hnth & _).
  destruct s as [l0|]; [|cbn in Hsz; lia]. cbn [elems] in Hnth. cbn [osl_strings_size] in Hsz. unfold zlength in Hsz.
  destruct (put_names_ok a l0) as (l & H1 & H2 & H3 & H4); [intros y Hy; rewrite Hsz; auto|assumption|].
  exists l. split; [|split; [lia|split; [assumption|]]].
  - unfold osl_arrays_to_strings. rewrite Em, Hs. cbn [bind]. destruct a; [congruence|]. rewrite H1. reflexivity.
  - intros k Hk Hnk. rewrite H4 by (assumption || lia). now apply Hnth.
Qed.
Print Assumptions C32_to_strings.
Example C32_to_strings_ex : osl_arrays_to_strings (Some [(3, lit "C"); (1, lit "A")])
  = Ok (Some (Some [lit "A"; lit "Dummy2"; lit "C"])).
Proof. vm_compute. reflexivity. Qed.
(** An identifier that is not positive writes outside the table. *)
Theorem C32_to_strings_refuted : forall n m, 
  osl_arrays_to_strings (Some [(0, n)]) = UB /\ osl_arrays_to_strings (Some [(1, n); (0, m)]) = UB.
Proof. intros n m. split; reflexivity. Qed.
Print Assumptions C32_to_strings_refuted.
