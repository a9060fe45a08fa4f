(** * DumpProofs2: the dumps of extensions, statements and scops at all levels *)
From Verif Require Import Base Spec RelSpec TextSpec IntModel VectorModel RelationModel UtilModel StringsModel RelTextModel LoopLemmas
  UtilProofs RelTextProofs SaveProofs ExtModel ScopModel IrregModel DumpModel DumpSpec DumpProofs.

Lemma lev_ub : lev (fun _ => UB). Proof. intros l k _ _. right. now split. Qed.
Lemma lev_fuel : lev (fun _ => OutOfFuel). Proof. intros l k _ _. right. now split. Qed.
(** Induction on extensions, symbols and generics together *)
Lemma edata_mutual (Pd : edata -> Prop) (Ps : symbol -> Prop) (Pg : generic -> Prop) :
  (forall d, (forall l, d = DSymbols l -> Forall Ps l) -> Pd d) ->
  (forall t g n a b c e, Forall Pg a -> Forall Pg b -> Forall Pg c -> Forall Pg e -> Ps (Symbol t g n a b c e)) ->
  (forall i, Pg (Generic i None)) -> (forall i d, Pd d -> Pg (Generic i (Some d))) ->
  (forall d, Pd d) /\ (forall x, Ps x) /\ (forall g, Pg g).
Proof.
  intros Hd Hs Hn Hg.
  assert (D : forall d, Pd d).
  { fix FD 1 with (FS (x : symbol) {struct x} : Ps x) (FG (g : generic) {struct g} : Pg g).
    - intros d. assert (A : match d with DSymbols l => Forall Ps l | _ => True end).
      { destruct d; try exact I. induction l as [|x l IH]; constructor; [apply FS|exact IH]. }
      apply Hd. intros l E. rewrite E in A. exact A.
    - destruct x as [t g n a b c e]. apply Hs.
      + induction a as [|y l IH]; constructor; [apply FG|exact IH].
      + induction b as [|y l IH]; constructor; [apply FG|exact IH].
      + induction c as [|y l IH]; constructor; [apply FG|exact IH].
      + induction e as [|y l IH]; constructor; [apply FG|exact IH].
    - destruct g as [i [d|]]; [apply Hg, FD|apply Hn]. }
  assert (G : forall g, Pg g) by (intros [i [d|]]; auto).
  split; [exact D|]. split; [|exact G]. intros [t g n a b c e]. apply Hs; apply Forall_forall; auto.
Qed.
(** A list of nodes between a first line and a last one *)
Section LIST.
Context {cfg : config}.
Lemma lev_chain {A} (f : Z -> Z -> A -> res str) (title null : str) xs : no_nl title -> no_nl null ->
  (forall n, Forall (fun x => lev (fun l => f l n x)) xs) ->
  lev (fun l => t <- nodes (f l) (line (l + 1) (lit "V")) 1 xs ;;
                Ok (line l (match xs with _ :: _ => title | [] => null end) ++ t ++ line (l + 1) [])).
Proof.
  intros Ht Hn H. apply lev_wrap.
  - apply (lev_nodes f (fun l => line (l + 1) (lit "V"))); [exact H|levstr; nonl].
  - intros h Hh. levstr; nonl; destruct xs; nonl.
Qed.
Lemma lev_arrays a : match a with Some a => Forall (fun x => no_nl (snd x)) a | None => True end -> lev_str (osl_arrays_idump a).
Proof.
  intros H. unfold osl_arrays_idump. destruct a as [a|]; levstr; nonl.
  apply (lev_str_flat (fun x l => line (l + 1) (lit "id: " ++ print2 (fst x) ++ lit ", name: " ++ snd x))).
  revert H. apply Forall_impl. intros x Hx. levstr; nonl.
Qed.
Lemma lev_clay c : lev (osl_clay_idump c).
Proof. unfold osl_clay_idump. destruct c as [[t|]|]; [|apply lev_ub|]; apply lev_ok; levstr; nonl. Qed.
Lemma lev_comment c : lev (osl_comment_idump c).
Proof. unfold osl_comment_idump. destruct c as [[t|]|]; [|apply lev_ub|]; apply lev_ok; levstr; nonl. Qed.
Lemma lev_textual c : lev (osl_textual_idump c).
Proof. unfold osl_textual_idump. destruct c as [[t|]|]; [|apply lev_ub|]; apply lev_ok; levstr; nonl. Qed.
Lemma lev_null c : lev_str (osl_null_idump c).
Proof. unfold osl_null_idump. levstr; nonl. Qed.
Lemma lev_coordinates c : match c with Some c => one_line (co_name c) | None => True end -> lev_str (osl_coordinates_idump c).
Proof. intros H. unfold osl_coordinates_idump. destruct c as [c|]; levstr; nonl; destruct (co_name c); nonl. Qed.
Lemma lev_scatnames c : match c with Some c => one_line_strings c | None => True end -> lev_str (osl_scatnames_idump c).
Proof.
  intros H. unfold osl_scatnames_idump. destruct c as [c|]; levstr; nonl. apply (lev_str_up _ 1 ltac:(lia) (lev_strings _ H)).
Qed.
Lemma lev_scatinfos c : lev_str (osl_scatinfos_idump c).
Proof. unfold osl_scatinfos_idump. destruct c as [c|]; levstr; nonl. Qed.
Lemma lev_extbody e : match e with Some e => match eb_body e with Some b => one_line_body b | None => True end | None => True end ->
  lev_str (osl_extbody_idump e).
Proof.
  intros H. unfold osl_extbody_idump. destruct e as [e|]; levstr; nonl.
  - apply (lev_str_flat (fun x l => line (l + 1) (lit "start: " ++ print_Z (fst x) ++ lit ", length: " ++ print_Z (snd x)))).
    apply Forall_forall. intros x _. levstr; nonl.
  - now apply lev_body.
Qed.
Lemma lev_loop l : Forall (fun x => one_line (lo_iter x) /\ one_line (lo_private x) /\ one_line (lo_user x)) l -> lev (osl_loop_idump l).
Proof.
  intros H. unfold osl_loop_idump. apply lev_chain; nonl. intros n. revert H. apply Forall_impl. intros x (A & B & C).
  unfold loop_node. apply lev_ok. levstr; nonl.
Qed.
Lemma lev_unroll l : Forall (fun x => one_line (un_iter x)) l -> lev (osl_pluto_unroll_idump l).
Proof.
  intros H. unfold osl_pluto_unroll_idump. apply lev_chain; nonl. intros n. revert H. apply Forall_impl. intros x A.
  unfold unroll_node. apply lev_ok. levstr; nonl.
Qed.
Lemma lev_annotation a : match a with Some a => an_prefix a = [] /\ an_suffix a = [] | None => True end -> lev (osl_annotation_idump a).
Proof.
  destruct a as [a|]; [|intros _; apply lev_ub]. intros [H1 H2]. unfold osl_annotation_idump, text_idump. rewrite H1, H2. cbn [nodes bind].
  apply lev_ok. levstr; nonl; apply lev_str_nil.
Qed.
Lemma lev_region l : Forall (fun r => re_prefix r = [] /\ re_suffix r = [] /\ re_prelude r = [] /\ re_postlude r = []) l -> lev (osl_region_idump l).
Proof.
  intros H. unfold osl_region_idump. apply lev_wrap.
  - apply (lev_nodes region_node (fun _ => [])); [|apply lev_str_nil]. intros n. revert H. apply Forall_impl.
    intros r (A & B & C & D). unfold region_node, text_idump. rewrite A, B, C, D. cbn [nodes bind]. apply lev_ok. levstr; nonl; apply lev_str_nil.
  - intros h Hh. levstr; nonl; destruct l; nonl.
Qed.

Section POINTED.
Variable pointed : dependence -> option statement * option statement.
Section ONE.
Variable one : statement -> Z -> res str.
Hypothesis Hone : forall d s, (fst (pointed d) = Some s \/ snd (pointed d) = Some s) -> lev (one s).
Lemma lev_pointed d : lev (pointed_idump one (fst (pointed d))) /\ lev (pointed_idump one (snd (pointed d))).
Proof.
  unfold pointed_idump. split.
  - destruct (fst (pointed d)) as [s|] eqn:E; [|apply lev_ub]. apply (Hone d). auto.
  - destruct (snd (pointed d)) as [s|] eqn:E; [|apply lev_ub]. apply (Hone d). auto.
Qed.
Lemma lev_dependence l : lev (osl_dependence_idump pointed one l).
Proof.
  unfold osl_dependence_idump. apply lev_chain; nonl. intros n. apply Forall_forall. intros d _. unfold dependence_node.
  destruct (lev_pointed d) as [Ha Hb].
  apply (lev_then (fun l => pointed_idump one (fst (pointed d)) (l + 1))); [apply lev_up; [lia|exact Ha]|]. intros ha Hha.
  apply (lev_then (fun l => pointed_idump one (snd (pointed d)) (l + 1))); [apply lev_up; [lia|exact Hb]|]. intros hb Hhb.
  apply lev_wrap; [apply (lev_up _ 1 ltac:(lia)), lev_relation|]. intros hc Hhc. levstr; nonl.
Qed.
Lemma lev_null_data k : lev (null_idump pointed one k).
Proof.
  destruct k; cbn [null_idump].
  - apply lev_ok, lev_strings. exact I.
  - apply lev_ok, lev_body. exact I.
  - apply lev_relation.
  - apply lev_textual.
  - apply lev_comment.
  - apply lev_ok, lev_null.
  - apply lev_ok, lev_scatinfos.
  - apply lev_ok, lev_scatnames. exact I.
  - apply lev_ok, lev_arrays. exact I.
  - apply lev_ok, lev_coordinates. exact I.
  - apply lev_clay.
  - apply lev_dependence.
  - apply lev_ok. levstr; nonl.
  - apply lev_ok, lev_extbody. exact I.
  - apply lev_loop. constructor.
  - apply lev_unroll. constructor.
  - apply lev_region. constructor.
  - apply lev_ub.
Qed.
Lemma lev_generics f l : no_nl (lit "+-- osl_generic_t") -> (forall n, Forall (fun g => lev (fun l => f l n g)) l) -> lev (generics_idump f l).
Proof. intros _ H. unfold generics_idump. apply lev_chain; nonl. Qed.
Lemma fold_and {A} (P : A -> Prop) l : fold_right (fun x Q => P x /\ Q) True l <-> Forall P l.
Proof. induction l as [|x l IH]; cbn [fold_right]; [split; auto|]. rewrite IH, Forall_cons_iff. reflexivity. Qed.

Lemma all_levels :
  (forall d, forall i, one_line_data i (Some d) -> data_inside one_line_data d -> lev (data_idump pointed one (if_kind i) d)) /\
  (forall x, symbol_inside one_line_data x -> forall n, lev (fun l => symbol_node pointed one l n x)) /\
  (forall g, generic_inside one_line_data g -> forall n, lev (fun l => generic_node pointed one l n g)).
Proof.
  apply edata_mutual.
  - intros d Hs i [_ Hi] Hin. destruct i as [u k]. destruct k, d; try apply lev_ub; cbn [if_kind data_idump] in *.
    + now apply lev_ok, lev_strings.
    + now apply lev_ok, lev_body.
    + apply lev_relation.
    + apply lev_textual.
    + apply lev_comment.
    + apply lev_ok, lev_null.
    + apply lev_ok, lev_scatinfos.
    + now apply lev_ok, lev_scatnames.
    + now apply lev_ok, lev_arrays.
    + now apply lev_ok, lev_coordinates.
    + apply lev_clay.
    + apply lev_dependence.
    + apply (lev_chain (symbol_node pointed one)); nonl. intros n. specialize (Hs l eq_refl).
      cbn [data_inside] in Hin. apply fold_and in Hin. rewrite Forall_forall in *. intros x Hx. now apply Hs, Hin.
    + now apply lev_ok, lev_extbody.
    + now apply lev_loop.
    + now apply lev_unroll.
    + now apply lev_region.
    + now apply lev_annotation.
  - intros t g dims a b c e Ha Hb Hc He (Ia & Ib & Ic & Ie) n. cbn [symbol_node].
    assert (G : forall l, Forall (fun g => generic_inside one_line_data g -> forall n, lev (fun l => generic_node pointed one l n g)) l ->
      fold_right (fun g Q => generic_inside one_line_data g /\ Q) True l -> lev (fun l' => generics_idump (generic_node pointed one) l (l' + 1))).
    { intros l Hl Il. apply fold_and in Il. apply (lev_up _ 1 ltac:(lia)). apply lev_generics; nonl. intros m.
      rewrite Forall_forall in *. intros x Hx. apply Hl; auto. }
    apply (lev_then (fun l => generics_idump (generic_node pointed one) a (l + 1))); [now apply G|]. intros ha Hha.
    apply (lev_then (fun l => generics_idump (generic_node pointed one) b (l + 1))); [now apply G|]. intros hb Hhb.
    apply (lev_then (fun l => generics_idump (generic_node pointed one) c (l + 1))); [now apply G|]. intros hc Hhc.
    apply lev_wrap; [now apply G|]. intros he Hhe. levstr; nonl.
  - intros i Hin n. cbn [generic_node]. destruct i as [i|].
    + destruct Hin as [[Hu _] _]. apply (lev_then (fun l => osl_interface_idump [i] (l + 1))); [apply (lev_up _ 1 ltac:(lia)), lev_interface; auto|].
      intros hi Hhi. apply (lev_wrap (fun l => null_idump pointed one (if_kind i) (l + 1))); [apply (lev_up _ 1 ltac:(lia)), lev_null_data|].
      intros hd Hhd. levstr; nonl.
    + apply (lev_then (fun l => osl_interface_idump [] (l + 1))); [apply (lev_up _ 1 ltac:(lia)), lev_interface; auto|].
      intros hi Hhi. cbn [bind]. apply lev_ok. levstr; nonl. apply lev_str_nil.
  - intros i d Hd Hin n. cbn [generic_node]. destruct i as [i|].
    + destruct Hin as [Hp Hin]. pose proof Hp as [Hu _]. apply (lev_then (fun l => osl_interface_idump [i] (l + 1))); [apply (lev_up _ 1 ltac:(lia)), lev_interface; auto|].
      intros hi Hhi. apply (lev_wrap (fun l => data_idump pointed one (if_kind i) d (l + 1))); [apply (lev_up _ 1 ltac:(lia)), Hd; auto|].
      intros hd Hhd. levstr; nonl.
    + apply (lev_then (fun l => osl_interface_idump [] (l + 1))); [apply (lev_up _ 1 ltac:(lia)), lev_interface; auto|].
      intros hi Hhi. cbn [bind]. apply lev_ok. levstr; nonl. apply lev_str_nil.
Qed.
Lemma lev_generic l : one_line_generics l -> lev (generic_idump pointed one l).
Proof.
  intros H. unfold generic_idump. apply lev_generics; nonl. intros n. revert H. apply Forall_impl. intros g Hg. now apply all_levels.
Qed.
Lemma lev_symbols l : Forall (symbol_inside one_line_data) l -> lev (symbols_idump pointed one l).
Proof.
  intros H. destruct l as [|x l]; [apply lev_null_data|]. unfold symbols_idump.
  apply (proj1 all_levels (DSymbols (x :: l)) (Iface None KSymbols)); [split; exact I|]. cbn [data_inside]. now apply fold_and.
Qed.
Lemma lev_statements l : Forall one_line_statement l -> lev (statements_idump pointed one l).
Proof.
  intros H. unfold statements_idump. apply lev_chain; nonl. intros n. revert H. apply Forall_impl. intros s Hs. unfold statement_node.
  apply (lev_then (fun l => osl_relation_idump (st_domain s) (l + 1))); [apply (lev_up _ 1 ltac:(lia)), lev_relation|]. intros ha Hha.
  apply (lev_then (fun l => osl_relation_idump (st_scattering s) (l + 1))); [apply (lev_up _ 1 ltac:(lia)), lev_relation|]. intros hb Hhb.
  apply (lev_then (fun l => osl_relation_list_idump (st_access s) (l + 1))); [apply (lev_up _ 1 ltac:(lia)), lev_list|]. intros hc Hhc.
  apply lev_wrap; [apply (lev_up _ 1 ltac:(lia)), lev_generic, Hs|]. intros he Hhe. levstr; nonl.
Qed.
Lemma lev_scops l : Forall one_line_scop l -> lev (scops_idump pointed one l).
Proof.
  intros H. unfold scops_idump. apply lev_chain; nonl. intros n. revert H. apply Forall_impl. intros s (Hl & Hp & Hst & Hr & He). unfold scop_node.
  apply (lev_then (fun l => osl_relation_idump (sc_context s) (l + 1))); [apply (lev_up _ 1 ltac:(lia)), lev_relation|]. intros ha Hha.
  apply (lev_then (fun l => generic_idump pointed one (sc_params s) (l + 1))); [apply (lev_up _ 1 ltac:(lia)), lev_generic, Hp|]. intros hb Hhb.
  apply (lev_then (fun l => statements_idump pointed one (sc_stmts s) (l + 1))); [apply (lev_up _ 1 ltac:(lia)), lev_statements, Hst|]. intros hc Hhc.
  apply (lev_then (fun l => osl_interface_idump (sc_registry s) (l + 1))); [apply (lev_up _ 1 ltac:(lia)), lev_interface, Hr|]. intros hd Hhd.
  apply lev_wrap; [apply (lev_up _ 1 ltac:(lia)), lev_generic, He|]. intros he Hhe. levstr; nonl.
Qed.
End ONE.
Lemma lev_one fuel : each_pointed pointed one_line_statement ->
  forall d s, (fst (pointed d) = Some s \/ snd (pointed d) = Some s) -> lev (statement_idump_one pointed fuel s).
Proof.
  intros H. induction fuel as [|k IH]; intros d s Hs; cbn [statement_idump_one]; [apply lev_fuel|].
  apply lev_statements; [exact IH|]. constructor; [eapply H; eauto|constructor].
Qed.
End POINTED.
End LIST.
