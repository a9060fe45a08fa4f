(** * DumpProofs: the dump functions write whole lines, the same at every level *)
From Verif Require Import Base Spec RelSpec TextSpec IntModel VectorModel RelationModel UtilModel StringsModel RelTextModel LoopLemmas
  UtilProofs RelTextProofs SaveProofs ExtModel ScopModel IrregModel DumpModel DumpSpec.

(** ** Shifting *)
Definition closed (t : str) : Prop := t = [] \/ exists a, t = a ++ [c_nl].
Lemma closed_nil : closed []. Proof. now left. Qed.
Lemma closed_app a b : closed a -> closed b -> closed (a ++ b).
Proof.
  intros Ha [-> | (b' & ->)]; [now rewrite app_nil_r|]. right. exists (a ++ b'). now rewrite app_assoc.
Qed.
Lemma closed_line l s : closed (line l s).
Proof. right. exists (indent l ++ s). unfold line. now rewrite app_assoc. Qed.
Lemma prefixed_app p b a c rest : prefixed p b ((a ++ [c]) ++ rest) = prefixed p b (a ++ [c]) ++ prefixed p (ceqb c c_nl) rest.
Proof.
  revert b. induction a as [|x a IH]; intros b; cbn [app prefixed].
  - now rewrite <- !app_assoc.
  - rewrite IH. now rewrite <- !app_assoc.
Qed.
Lemma shifted_app k a b : closed a -> shifted k (a ++ b) = shifted k a ++ shifted k b.
Proof.
  intros [-> | (a' & ->)]; [reflexivity|]. unfold shifted. rewrite prefixed_app. reflexivity.
Qed.
Lemma prefixed_no_nl p t b : no_nl t -> t <> [] -> prefixed p b (t ++ [c_nl]) = (if b then p else []) ++ t ++ [c_nl].
Proof.
  revert b. induction t as [|x t IH]; intros b Hn Hne; [congruence|]. cbn [app prefixed].
  assert (ceqb x c_nl = false) as ->. { unfold ceqb. destruct (Ascii.eqb_spec x c_nl) as [E|E]; [|reflexivity]. subst. now elim Hn; left. }
  destruct t as [|y t]; [reflexivity|].
  rewrite IH; [reflexivity| |congruence]. intros H. apply Hn. now right.
Qed.
Lemma times_plus a b s : times (a + b) s = times a s ++ times b s.
Proof. induction a as [|a IH]; [reflexivity|]. cbn [times Nat.add]. now rewrite IH, app_assoc. Qed.
Lemma indent_times l : indent l = times (Z.to_nat l) [chr 124; chr 9].
Proof. unfold indent. induction (Z.to_nat l) as [|n IH]; [reflexivity|]. cbn [repeat concat times]. now rewrite IH. Qed.
Lemma indent_no_nl l : no_nl (indent l).
Proof.
  rewrite indent_times. induction (Z.to_nat l) as [|n IH]; [intros []|]. cbn [times]. apply no_nl_app. split; [|exact IH].
  intros [H | [H | []]]; discriminate.
Qed.
Lemma shifted_line k l s : 0 <= l -> 0 <= k -> no_nl s -> shifted k (line l s) = line (l + k) s.
Proof.
  intros Hl Hk Hs. unfold shifted, line. rewrite app_assoc.
  assert (indent (l + k) = times (Z.to_nat k) [chr 124; chr 9] ++ indent l) as E.
  { rewrite !indent_times, <- times_plus. f_equal. lia. }
  rewrite E. destruct (indent l ++ s) as [|x t] eqn:Et.
  - apply app_eq_nil in Et. destruct Et as [-> ->]. cbn. rewrite app_nil_r. reflexivity.
  - rewrite prefixed_no_nl; [|rewrite <- Et; apply no_nl_app; split; [apply indent_no_nl|exact Hs]|congruence].
    rewrite <- Et. now rewrite <- !app_assoc.
Qed.

(** ** Dumps at all levels *)
Definition stuck {A} (r : res A) : Prop := match r with Ok _ => False | _ => True end.
Definition lev (f : Z -> res str) : Prop :=
  forall l k, 0 <= l -> 0 <= k ->
    (exists a, closed a /\ f l = Ok a /\ f (l + k) = Ok (shifted k a)) \/ (stuck (f l) /\ f (l + k) = f l).
Definition lev_str (f : Z -> str) : Prop :=
  forall l k, 0 <= l -> 0 <= k -> closed (f l) /\ f (l + k) = shifted k (f l).
Lemma lev_uniform f : lev f -> uniform_dump f.
Proof.
  intros H level Hl. destruct (H 0 level ltac:(lia) Hl) as [(a & _ & E0 & E) | [Hs E]]; rewrite Z.add_0_l in E; rewrite E.
  - now rewrite E0.
  - destruct (f 0); cbn in Hs |- *; try easy.
Qed.
Lemma lev_ok f : lev_str f -> lev (fun l => Ok (f l)).
Proof. intros H l k Hl Hk. left. exists (f l). destruct (H l k Hl Hk) as [Hc ->]. auto. Qed.
Lemma lev_up f d : 0 <= d -> lev f -> lev (fun l => f (l + d)).
Proof.
  intros Hd H l k Hl Hk. cbv beta. replace (l + k + d) with (l + d + k) by lia. apply H; lia.
Qed.
Lemma lev_str_line d s : 0 <= d -> no_nl s -> lev_str (fun l => line (l + d) s).
Proof.
  intros Hd Hs l k Hl Hk. split; [apply closed_line|]. rewrite shifted_line by (assumption || lia). f_equal. lia.
Qed.
Lemma lev_str_line0 s : no_nl s -> lev_str (fun l => line l s).
Proof. intros Hs l k Hl Hk. split; [apply closed_line|]. now rewrite shifted_line by assumption. Qed.
Lemma lev_str_app f g : lev_str f -> lev_str g -> lev_str (fun l => f l ++ g l).
Proof.
  intros Hf Hg l k Hl Hk. destruct (Hf l k Hl Hk) as [Cf Ef]. destruct (Hg l k Hl Hk) as [Cg Eg].
  split; [now apply closed_app|]. now rewrite shifted_app, Ef, Eg.
Qed.
Lemma lev_str_up f d : 0 <= d -> lev_str f -> lev_str (fun l => f (l + d)).
Proof. intros Hd H l k Hl Hk. replace (l + k + d) with (l + d + k) by lia. apply H; lia. Qed.
Lemma lev_str_nil : lev_str (fun _ => []).
Proof. intros l k _ _. split; [apply closed_nil|reflexivity]. Qed.
Lemma lev_str_flat {A} (f : A -> Z -> str) xs : Forall (fun x => lev_str (f x)) xs -> lev_str (fun l => flat_map (fun x => f x l) xs).
Proof.
  induction 1 as [|x xs Hx Hxs IH]; [apply lev_str_nil|]. cbn [flat_map]. now apply (lev_str_app (f x)).
Qed.
Lemma lev_str_title n s : no_nl s -> lev_str (fun l => next_title n l s).
Proof. intros Hs. unfold next_title. destruct (n =? 1); [apply lev_str_nil|now apply lev_str_line0]. Qed.
Lemma lev_nodes {A} (f : Z -> Z -> A -> res str) (sep : Z -> str) xs :
  (forall n, Forall (fun x => lev (fun l => f l n x)) xs) -> lev_str sep ->
  forall n, lev (fun l => nodes (f l) (sep l) n xs).
Proof.
  intros H Hsep. assert (H' : Forall (fun x => forall n, lev (fun l => f l n x)) xs).
  { apply Forall_forall. intros x Hx n. specialize (H n). rewrite Forall_forall in H. auto. }
  clear H. induction H' as [|x xs Hx Hxs IH]; intros n l k Hl Hk.
  - left. exists []. cbn. auto using closed_nil.
  - cbn [nodes]. fold (nodes (f l) (sep l)). fold (nodes (f (l + k)) (sep (l + k))).
    destruct (Hx n l k Hl Hk) as [(a & Ca & E1 & E2) | [Hs E]].
    2:{ right. cbv beta in E. rewrite E. destruct (f l n x); cbn in *; auto; easy. }
    cbv beta in E1, E2. rewrite E1, E2. cbn [bind].
    destruct (IH (n + 1) l k Hl Hk) as [(b & Cb & F1 & F2) | [Hs E]].
    2:{ right. cbv beta in E. rewrite E. destruct (nodes (f l) (sep l) (n + 1) xs); cbn in *; auto; easy. }
    cbv beta in F1, F2. rewrite F1, F2. cbn [bind]. left. destruct (Hsep l k Hl Hk) as [Cs Es].
    exists (a ++ match xs with [] => [] | _ => sep l end ++ b).
    assert (closed (match xs with [] => [] | _ => sep l end)) by (destruct xs; auto using closed_nil).
    split; [auto using closed_app|]. split; [reflexivity|]. do 2 f_equal.
    rewrite !shifted_app by auto. f_equal. f_equal. destruct xs; [reflexivity|exact Es].
Qed.

(** ** Lines without newline *)
Lemma no_nl_nil : no_nl []. Proof. intros []. Qed.
Lemma no_nl_flat {A} (f : A -> str) l : Forall (fun x => no_nl (f x)) l -> no_nl (flat_map f l).
Proof. induction 1 as [|x l Hx Hl IH]; [apply no_nl_nil|]. cbn [flat_map]. apply no_nl_app. now split. Qed.
Lemma no_nl_flat_all {A} (f : A -> str) l : (forall x, no_nl (f x)) -> no_nl (flat_map f l).
Proof. intros H. apply no_nl_flat. apply Forall_forall. auto. Qed.
Lemma no_nl_pr s : one_line s -> no_nl (pr s).
Proof. destruct s; [auto|]. intros _. now apply no_nl_lit. Qed.
Lemma no_nl_print2 v : no_nl (print2 v).
Proof. unfold print2. apply no_nl_app. split; [|apply print_Z_no_nl]. destruct (print_Z v) as [|c [|d t]]; now apply no_nl_lit. Qed.
Lemma no_nl_spaced l : no_nl (print_spaced l).
Proof.
  induction l as [|x l IH]; [apply no_nl_nil|]. cbn [print_spaced]. destruct l as [|y l]; [apply print_Z_no_nl|].
  apply no_nl_app. split; [apply print_Z_no_nl|]. apply no_nl_app. split; [now apply no_nl_lit|exact IH].
Qed.
Lemma no_nl_type t : no_nl (type_string t).
Proof. unfold type_string. repeat match goal with |- context [if ?b then _ else _] => destruct b end; now apply no_nl_lit. Qed.
Lemma no_nl_flatten t : no_nl (flatten t).
Proof.
  unfold flatten. intros H. apply in_map_iff in H. destruct H as (c & E & _). destruct (ceqb c c_nl) eqn:Ec; [discriminate|].
  subst. now rewrite ceqb_refl in Ec.
Qed.
Lemma no_nl_firstn n t : no_nl t -> no_nl (firstn n t).
Proof. intros H Hin. apply H. rewrite <- (firstn_skipn n t). apply in_or_app. now left. Qed.
Lemma no_nl_skipn n t : no_nl t -> no_nl (skipn n t).
Proof. intros H Hin. apply H. rewrite <- (firstn_skipn n t). apply in_or_app. now right. Qed.
Lemma no_nl_shortened t : no_nl t -> no_nl (shortened t).
Proof.
  intros H. unfold shortened. destruct (40 <? zlength t); [|exact H].
  apply no_nl_app. split; [now apply no_nl_firstn|]. apply no_nl_app. split; [now apply no_nl_lit|now apply no_nl_skipn].
Qed.
Lemma no_nl_dep_type t : no_nl (dep_type_dump t).
Proof. unfold dep_type_dump. repeat match goal with |- context [if ?b then _ else _] => destruct b end; now apply no_nl_lit. Qed.
Lemma no_nl_symbol_type t : no_nl (symbol_type_dump t).
Proof.
  unfold symbol_type_dump. destruct (t =? UNDEFINED); [now apply no_nl_lit|]. apply no_nl_app. split; [now apply no_nl_lit|].
  repeat match goal with |- context [if ?b then _ else _] => destruct b end; now apply no_nl_lit.
Qed.
Lemma no_nl_pad4 t : no_nl t -> no_nl (pad4 t).
Proof.
  intros H. unfold pad4. apply no_nl_app. split; [|exact H]. intros Hin. apply repeat_spec in Hin. discriminate.
Qed.
Ltac nonl :=
  repeat match goal with
    | |- no_nl (_ ++ _) => apply no_nl_app; split
    | |- no_nl (lit _) => now apply no_nl_lit
    | |- no_nl [] => apply no_nl_nil
    | |- no_nl [c_sp] => now apply no_nl_lit
    | |- no_nl (c_sp :: _) => apply no_nl_cons; [reflexivity|]
    | |- no_nl (print_Z _) => apply print_Z_no_nl
    | |- no_nl (print2 _) => apply no_nl_print2
    | |- no_nl (print_spaced _) => apply no_nl_spaced
    | |- no_nl (type_string _) => apply no_nl_type
    | |- no_nl (flatten _) => apply no_nl_flatten
    | |- no_nl (shortened _) => apply no_nl_shortened
    | |- no_nl (pr _) => apply no_nl_pr
    | |- no_nl (dep_type_dump _) => apply no_nl_dep_type
    | |- no_nl (symbol_type_dump _) => apply no_nl_symbol_type
    | |- no_nl (if ?b then _ else _) => destruct b
    | |- no_nl (flat_map _ _) => apply no_nl_flat_all; intro; solve [nonl]
    | |- no_nl (comma _) => unfold comma
    end; auto.
(** A concatenation of lines *)
Ltac levstr :=
  repeat match goal with
    | |- lev_str (fun l => _ ++ _) => apply lev_str_app
    | |- lev_str (fun l => line l _) => apply lev_str_line0
    | |- lev_str (fun l => line (l + _) _) => apply lev_str_line; [lia|]
    | |- lev_str (fun l => next_title _ l _) => apply lev_str_title
    end.

Section LEVELS.
Context {cfg : config}.
Lemma no_nl_precision p : no_nl (osl_int_dump_precision p).
Proof.
  unfold osl_int_dump_precision. repeat match goal with |- context [if ?b then _ else _] => destruct b end; nonl.
Qed.
Lemma int_print_no_nl p v t : osl_int_print p v = Ok t -> no_nl t.
Proof.
  unfold osl_int_print, osl_int_sprint, pswitch. intros H.
  destruct (is_fixed p); [|destruct (is_mp p); [|discriminate]]; cbn [bind] in H; unfold buf_store in H;
    (destruct (_ <? _); [|discriminate]); apply Ok_inj in H; subst; apply no_nl_pad4, print_Z_no_nl.
Qed.
Lemma no_nl_title r : no_nl (relation_title r).
Proof. unfold relation_title, osl_relation_print_type, osl_relation_sprint_type. nonl. apply no_nl_precision. Qed.
Lemma cells_no_nl p (get : Z -> res Z) n t :
  cfor 0 n (fun j s => x <- get j ;; t <- osl_int_print p x ;; Ok (s ++ t ++ [c_sp])) [] = Ok t -> no_nl t.
Proof.
  apply (cfor_post_const no_nl); [apply no_nl_nil|].
  intros i s s' _ Hs E. inv_bind E. inv_bind E. apply Ok_inj in E. subst s'.
  apply no_nl_app. split; [exact Hs|]. apply no_nl_app. split; [eapply int_print_no_nl; eauto|now apply no_nl_lit].
Qed.
Lemma lev_cfor (g : Z -> Z -> res str) lo hi : (forall i, lev (fun l => g l i)) ->
  lev (fun l => cfor lo hi (fun i s => t <- g l i ;; Ok (s ++ t)) []).
Proof.
  intros Hg.
  assert (X : forall n lo acc l k, n = Z.to_nat (hi - lo) -> closed acc -> 0 <= l -> 0 <= k ->
    let f l acc := cfor lo hi (fun i s => t <- g l i ;; Ok (s ++ t)) acc in
    (exists a, closed a /\ f l acc = Ok a /\ f (l + k) (shifted k acc) = Ok (shifted k a)) \/ (stuck (f l acc) /\ f (l + k) (shifted k acc) = f l acc)).
  { induction n as [|n IH]; clear lo; intros lo acc l k En Ha Hl Hk; cbv beta zeta.
    - rewrite !cfor_empty by lia. left. eauto.
    - rewrite !(cfor_step lo hi) by lia. destruct (Hg lo l k Hl Hk) as [(a & Ca & E1 & E2) | [Hs E]].
      + cbv beta in E1, E2. rewrite E1, E2. cbn [bind]. rewrite <- shifted_app by assumption. apply IH; auto using closed_app. lia.
      + right. cbv beta in E, Hs. rewrite E. destruct (g l lo); cbn in *; auto; easy. }
  intros l k Hl Hk. exact (X _ lo [] l k eq_refl closed_nil Hl Hk).
Qed.
(** One step of a sequence of dumps, and the last one *)
Ltac lstep l k H :=
  let a := fresh "a" in let C := fresh "C" in let E1 := fresh "E" in let E2 := fresh "E" in let S := fresh "S" in
  destruct (H l k ltac:(lia) ltac:(lia)) as [(a & C & E1 & E2) | [S E1]]; cbv beta in *;
  [ rewrite E1, E2; cbn [bind]; clear E1 E2
  | right; rewrite E1; match goal with |- stuck (bind ?r _) /\ _ => destruct r; cbn in *; auto; easy end ].
Lemma lev_wrap f g : lev f -> (forall h, lev_str h -> lev_str (fun l => g l (h l))) -> lev (fun l => t <- f l ;; Ok (g l t)).
Proof.
  intros Hf Hg l k Hl Hk. destruct (Hf l k Hl Hk) as [(a & C & E1 & E2) | [S E]].
  - rewrite E1, E2. cbn [bind]. left. exists (g l a).
    destruct (Hg (fun l' => match f l' with Ok t => t | _ => [] end)) with (l := l) (k := k) as [X Y]; auto.
    + intros l' k' Hl' Hk'. destruct (Hf l' k' Hl' Hk') as [(a' & C' & E1' & E2') | [S' E']].
      * now rewrite E1', E2'.
      * rewrite E'. destruct (f l'); cbn in S'; try easy; split; auto using closed_nil.
    + cbv beta in *. rewrite E1 in X, Y. rewrite E2 in Y. now rewrite Y.
  - right. rewrite E. destruct (f l); cbn in *; auto; easy.
Qed.
(** The same with a pure function of the level in front: [g] may bind again. *)
Lemma lev_then f (g : Z -> str -> res str) : lev f -> (forall h, lev_str h -> lev (fun l => g l (h l))) ->
  lev (fun l => t <- f l ;; g l t).
Proof.
  intros Hf Hg l k Hl Hk. destruct (Hf l k Hl Hk) as [(a & C & E1 & E2) | [S E]].
  - rewrite E1, E2. cbn [bind].
    assert (Hh : lev_str (fun l' => match f l' with Ok t => t | _ => [] end)).
    { intros l' k' Hl' Hk'. destruct (Hf l' k' Hl' Hk') as [(a' & C' & E1' & E2') | [S' E']].
      - now rewrite E1', E2'.
      - rewrite E'. destruct (f l'); cbn in S'; try easy; split; auto using closed_nil. }
    pose proof (Hg _ Hh l k Hl Hk) as X. cbv beta in X. rewrite E1, E2 in X. exact X.
  - right. rewrite E. destruct (f l); cbn in *; auto; easy.
Qed.
Lemma lev_str_hyp (h : Z -> str) : lev_str h -> lev_str (fun l => h l). Proof. auto. Qed.

Lemma lev_vector v : lev (osl_vector_idump v).
Proof.
  destruct v as [v|]; unfold osl_vector_idump.
  - destruct (cfor _ _ _ _) as [cells | | |] eqn:E; intros l k Hl Hk; cbn [bind]; try (right; split; [exact I|reflexivity]).
    revert l k Hl Hk. apply lev_ok. levstr; nonl; [apply no_nl_precision|].
    apply (cells_no_nl (vprec v) (fun j => aget (vv v) j) (vsize v)). exact E.
  - apply lev_ok. levstr; nonl.
Qed.
Lemma lev_row r i : lev (fun l => row_idump r i l).
Proof.
  unfold row_idump. destruct (cfor _ _ _ _) as [cells | | |] eqn:E; intros l k Hl Hk; cbn [bind]; try (right; split; [exact I|reflexivity]).
  revert l k Hl Hk. apply lev_ok. levstr; nonl.
  apply (cells_no_nl (rprec r) (fun j => mget (rm r) i j) (ncols r)). exact E.
Qed.
Lemma lev_part n r : lev (fun l => part_idump l n r).
Proof.
  unfold part_idump. apply lev_wrap; [apply (lev_cfor (fun l i => row_idump r i l)); intros i; apply lev_row|].
  intros h Hh. levstr; nonl. apply no_nl_title.
Qed.
Lemma lev_relation u : lev (osl_relation_idump u).
Proof.
  unfold osl_relation_idump. apply lev_wrap.
  - apply (lev_nodes part_idump (fun l => line (l + 1) (lit "|") ++ line (l + 1) (lit "V"))).
    + intros n. apply Forall_forall. intros r _. apply lev_part.
    + levstr; nonl.
  - intros h Hh. levstr; auto; destruct u; nonl. apply no_nl_title.
Qed.
Lemma lev_list l : lev (osl_relation_list_idump l).
Proof.
  unfold osl_relation_list_idump. apply lev_wrap.
  - apply (lev_nodes relation_list_node (fun l => line (l + 1) (lit "V"))); [|levstr; nonl].
    intros n. apply Forall_forall. intros u _. unfold relation_list_node. apply lev_wrap; [apply lev_up, lev_relation; lia|].
    intros h Hh. levstr; nonl.
  - intros h Hh. levstr; auto; destruct l; nonl.
Qed.
Lemma lev_strings s : one_line_strings s -> lev_str (osl_strings_idump s).
Proof.
  intros H. unfold osl_strings_idump. levstr; nonl. destruct s as [s|]; nonl. apply no_nl_flat. cbn in H.
  destruct s as [l|]; [|constructor]. revert H. apply Forall_impl. intros x Hx. now apply no_nl_cons.
Qed.
Lemma lev_body b : match b with Some b => one_line_body b | None => True end -> lev_str (osl_body_idump b).
Proof.
  intros H. unfold osl_body_idump. destruct b as [b|]; levstr; nonl; destruct H as [H1 H2].
  - apply (lev_str_up _ 1 ltac:(lia) (lev_strings _ H1)).
  - apply (lev_str_up _ 1 ltac:(lia) (lev_strings _ H2)).
Qed.
Lemma lev_names x : (forall n, x = Some n -> Forall no_nl (elems (n_params n)) /\ Forall no_nl (elems (n_iters n)) /\
    Forall no_nl (elems (n_scatt n)) /\ Forall no_nl (elems (n_locals n)) /\ Forall no_nl (elems (n_arrays n))) ->
  lev_str (osl_names_idump x).
Proof.
  intros H. unfold osl_names_idump. destruct x as [x|]; levstr; nonl; destruct (H x eq_refl) as (A & B & C & D & E);
    match goal with |- lev_str (fun l => osl_strings_idump ?s (l + 1)) => apply (lev_str_up _ 1 ltac:(lia) (lev_strings s ltac:(assumption))) end.
Qed.
Lemma lev_interface l : Forall (fun i => one_line (if_uri i)) l -> lev (osl_interface_idump l).
Proof.
  intros H. unfold osl_interface_idump. apply lev_wrap.
  - apply (lev_nodes interface_node (fun l => line (l + 2) [] ++ line (l + 1) (lit "V"))); [|levstr; nonl].
    intros n. revert H. apply Forall_impl. intros i Hi. unfold interface_node. apply lev_ok. levstr; nonl.
    destruct (if_uri i); [exact Hi|now apply no_nl_lit].
  - intros h Hh. levstr; nonl. destruct H; nonl.
Qed.
End LEVELS.
