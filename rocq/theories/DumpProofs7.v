(** * DumpProofs7: what can be dumped is dumped *)
From Verif Require Import Base Spec RelSpec TextSpec IntModel IntProofs VectorModel RelationModel RelationProofs UtilModel StringsModel RelTextModel LoopLemmas
  UtilProofs TextInt RelTextProofs RelTextProofs2 PropExpr2 SaveProofs ExtModel ScopModel IrregModel DumpModel DumpSpec DumpProofs DumpProofs2 DumpProofs3 DumpProofs4 DumpProofs5.

Lemma nodes_total {A} (f : Z -> A -> res str) sep xs : Forall (fun x => forall n, exists t, f n x = Ok t) xs -> forall n, exists t, nodes f sep n xs = Ok t.
Proof.
  induction 1 as [|x xs Hx H IH]; intros n; [eexists; reflexivity|]. rewrite nodes_cons. destruct (Hx n) as [t ->]. cbn [bind]. destruct (IH (n + 1)) as [t' ->]. eexists. reflexivity.
Qed.
Lemma nodes_ok {A} (f : Z -> A -> res str) sep xs : (forall n x, exists t, f n x = Ok t) -> forall n, exists t, nodes f sep n xs = Ok t.
Proof. intros H. apply nodes_total. apply Forall_forall. auto. Qed.
Lemma total_bind {A B} (r : res A) (k : A -> res B) : (exists t, r = Ok t) -> (forall v, exists t, k v = Ok t) -> exists t, bind r k = Ok t.
Proof. intros [t ->] H. apply H. Qed.
Section TOTAL.
Context {cfg : config}.
Lemma total_union u l : dumpable_union cfg u -> exists t, osl_relation_idump u l = Ok t.
Proof. intros H. eexists. now apply union_text. Qed.
Lemma total_list us l : Forall (dumpable_union cfg) us -> exists t, osl_relation_list_idump us l = Ok t.
Proof.
  intros H. unfold osl_relation_list_idump. destruct (nodes_total (relation_list_node l) (line (l + 1) (lit "V")) us) with (n := 1) as [t ->]; [|eexists; reflexivity].
  revert H. apply Forall_impl. intros u Hu n. unfold relation_list_node. destruct (total_union u (l + 1) Hu) as [t ->]. eexists. reflexivity.
Qed.
Lemma total_interface i l : exists t, osl_interface_idump i l = Ok t.
Proof. unfold osl_interface_idump. edestruct (nodes_ok (interface_node l)) as [t ->]; [eexists; reflexivity|eexists; reflexivity]. Qed.
Lemma total_loop i l : exists t, osl_loop_idump i l = Ok t.
Proof. unfold osl_loop_idump. edestruct (nodes_ok (loop_node l)) as [t ->]; [eexists; reflexivity|eexists; reflexivity]. Qed.
Lemma total_unroll i l : exists t, osl_pluto_unroll_idump i l = Ok t.
Proof. unfold osl_pluto_unroll_idump. edestruct (nodes_ok (unroll_node l)) as [t ->]; [eexists; reflexivity|eexists; reflexivity]. Qed.
Lemma total_text x l : exists t, text_idump x l = Ok t.
Proof. unfold text_idump. edestruct (nodes_ok (text_node l)) as [t ->]; [eexists; reflexivity|eexists; reflexivity]. Qed.
Lemma total_annotation a l : exists t, osl_annotation_idump (Some a) l = Ok t.
Proof. unfold osl_annotation_idump. destruct (total_text (an_prefix a) (l + 2)) as [t ->], (total_text (an_suffix a) (l + 2)) as [t' ->]. eexists. reflexivity. Qed.
Lemma total_region i l : exists t, osl_region_idump i l = Ok t.
Proof.
  unfold osl_region_idump. edestruct (nodes_ok (region_node l)) as [t ->]; [|eexists; reflexivity]. intros n r. unfold region_node.
  destruct (total_text (re_prefix r) (l + 2)) as [t1 ->], (total_text (re_suffix r) (l + 2)) as [t2 ->], (total_text (re_prelude r) (l + 2)) as [t3 ->], (total_text (re_postlude r) (l + 2)) as [t4 ->].
  eexists. reflexivity.
Qed.
Section POINTED.
Variable pointed : dependence -> option statement * option statement.
Section ONE.
Variable one : statement -> Z -> res str.
Variable P : statement -> Prop.
Hypothesis Hone : forall s l, P s -> exists t, one s l = Ok t.
Lemma total_dependence ds l : Forall (dumpable_dependence cfg pointed P) ds -> exists t, osl_dependence_idump pointed one ds l = Ok t.
Proof.
  intros H. unfold osl_dependence_idump. destruct (nodes_total (dependence_node pointed one l) (line (l + 1) (lit "V")) ds) with (n := 1) as [t ->]; [|eexists; reflexivity].
  revert H. apply Forall_impl. intros d (Hu & (s & Es & Hs) & (s' & Es' & Hs')) n. unfold dependence_node. rewrite Es, Es'. cbn [pointed_idump].
  destruct (Hone s (l + 1) Hs) as [t1 ->]. cbn [bind]. destruct (Hone s' (l + 1) Hs') as [t2 ->]. cbn [bind]. destruct (total_union (de_domain d) (l + 1) Hu) as [t3 ->].
  eexists. reflexivity.
Qed.
Lemma total_null k l : k <> KAnnotation -> exists t, null_idump pointed one k l = Ok t.
Proof.
  intros Hk. destruct k; try (eexists; reflexivity); contradiction.
Qed.
Lemma total_generics f gs l : Forall (fun g => forall l n, exists t, f l n g = Ok t) gs -> exists t, generics_idump f gs l = Ok t.
Proof.
  intros H. unfold generics_idump. destruct (nodes_total (f l) (line (l + 1) (lit "V")) gs) with (n := 1) as [t ->]; [|eexists; reflexivity]. revert H. apply Forall_impl. auto.
Qed.
Lemma all_total :
  (forall d, forall i, dumpable_data cfg pointed P i (Some d) -> data_inside (dumpable_data cfg pointed P) d -> forall l, exists t, data_idump pointed one (if_kind i) d l = Ok t) /\
  (forall x, symbol_inside (dumpable_data cfg pointed P) x -> forall l n, exists t, symbol_node pointed one l n x = Ok t) /\
  (forall g, generic_inside (dumpable_data cfg pointed P) g -> forall l n, exists t, generic_node pointed one l n g = Ok t).
Proof.
  apply edata_mutual.
  - intros d Hs i [Hm Hd] Hin l. destruct i as [u k]. destruct k, d; try destruct Hm; cbn [if_kind data_idump] in *; try (eexists; reflexivity).
    + now apply total_union.
    + destruct t; [|contradiction]. eexists. reflexivity.
    + destruct c; [|contradiction]. eexists. reflexivity.
    + destruct c; [|contradiction]. eexists. reflexivity.
    + now apply total_dependence.
    + edestruct (nodes_total (symbol_node pointed one l) (line (l + 1) (lit "V")) l0) as [t ->]; [|eexists; reflexivity].
      specialize (Hs l0 eq_refl). cbn [data_inside] in Hin. apply fold_and in Hin. rewrite Forall_forall in *. intros x Hx n. now apply Hs, Hin.
    + apply total_loop.
    + apply total_unroll.
    + apply total_region.
    + apply total_annotation.
  - intros t g dims a b c e Ha Hb Hc He (Ia & Ib & Ic & Ie) l n. cbn [symbol_node].
    assert (G : forall l l', Forall (fun g => generic_inside (dumpable_data cfg pointed P) g -> forall l n, exists t, generic_node pointed one l n g = Ok t) l ->
      fold_right (fun g Q => generic_inside (dumpable_data cfg pointed P) g /\ Q) True l -> exists t, generics_idump (generic_node pointed one) l l' = Ok t).
    { intros gs l' Hl Il. apply fold_and in Il. apply total_generics. rewrite Forall_forall in *. intros x Hx. apply Hl; [exact Hx|exact (Il x Hx)]. }
    apply total_bind; [exact (G a (l + 1) Ha Ia)|]. intros ta. apply total_bind; [exact (G b (l + 1) Hb Ib)|]. intros tb. apply total_bind; [exact (G c (l + 1) Hc Ic)|]. intros tc.
    apply total_bind; [exact (G e (l + 1) He Ie)|]. intros te. eexists. reflexivity.
  - intros i Hin l n. apply total_bind; [apply total_interface|]. intros ti. apply total_bind; [|intros; eexists; reflexivity].
    destruct i as [i|]; [|eexists; reflexivity]. destruct Hin as [Hi _]. now apply total_null.
  - intros i d Hd Hin l n. apply total_bind; [apply total_interface|]. intros ti. apply total_bind; [|intros; eexists; reflexivity].
    destruct i as [i|]; [|eexists; reflexivity]. destruct Hin as [Hi Hin]. exact (Hd i Hi Hin (l + 1)).
Qed.
Lemma total_generic gs l : dumpable_generics cfg pointed P gs -> exists t, generic_idump pointed one gs l = Ok t.
Proof. intros H. apply total_generics. revert H. apply Forall_impl. intros g Hg. now apply all_total. Qed.
Lemma total_statements ss l : Forall (dumpable_statement_with cfg pointed P) ss -> exists t, statements_idump pointed one ss l = Ok t.
Proof.
  intros H. unfold statements_idump. destruct (nodes_total (statement_node pointed one l) (line (l + 1) (lit "V")) ss) with (n := 1) as [t ->]; [|eexists; reflexivity].
  revert H. apply Forall_impl. intros s (H1 & H2 & H3 & H4) n. unfold statement_node.
  destruct (total_union _ (l + 1) H1) as [t1 ->]. cbn [bind]. destruct (total_union _ (l + 1) H2) as [t2 ->]. cbn [bind].
  destruct (total_list _ (l + 1) H3) as [t3 ->]. cbn [bind]. destruct (total_generic _ (l + 1) H4) as [t4 ->]. eexists. reflexivity.
Qed.
Lemma total_scops ss l : Forall (dumpable_scop_with cfg pointed P) ss -> exists t, scops_idump pointed one ss l = Ok t.
Proof.
  intros H. unfold scops_idump. destruct (nodes_total (scop_node pointed one l) (line (l + 1) (lit "V")) ss) with (n := 1) as [t ->]; [|eexists; reflexivity].
  revert H. apply Forall_impl. intros s (H1 & H2 & H3 & H4) n. unfold scop_node.
  destruct (total_union _ (l + 1) H1) as [t1 ->]. cbn [bind]. destruct (total_generic _ (l + 1) H2) as [t2 ->]. cbn [bind].
  destruct (total_statements _ (l + 1) H3) as [t3 ->]. cbn [bind]. destruct (total_interface (sc_registry s) (l + 1)) as [t4 ->]. cbn [bind].
  destruct (total_generic _ (l + 1) H4) as [t5 ->]. eexists. reflexivity.
Qed.
End ONE.
(** The statements at the end of [n] steps *)
Definition pointed_ok (n : nat) : statement -> Prop := match n with O => fun _ => False | S k => dumpable_statement cfg pointed k end.
Lemma total_one n : forall fuel, (n <= fuel)%nat -> forall s l, pointed_ok n s -> exists t, statement_idump_one pointed fuel s l = Ok t.
Proof.
  induction n as [|n IH]; intros fuel Hf s l Hs; [destruct Hs|]. destruct fuel as [|k]; [lia|]. cbn [statement_idump_one pointed_ok] in *.
  apply (total_statements (statement_idump_one pointed k) (pointed_ok n)); [apply IH; lia|]. constructor; [|constructor]. destruct n; exact Hs.
Qed.
Lemma total_statement_fuel n fuel ss l : (n <= fuel)%nat -> Forall (dumpable_statement cfg pointed n) ss -> exists t, osl_statement_idump pointed fuel ss l = Ok t.
Proof. intros Hf H. apply (total_statements _ (pointed_ok n)); [now apply total_one|]. revert H. apply Forall_impl. intros s Hs. destruct n; exact Hs. Qed.
Lemma total_scop_fuel n fuel ss l : (n <= fuel)%nat -> Forall (dumpable_scop cfg pointed n) ss -> exists t, osl_scop_idump pointed fuel ss l = Ok t.
Proof. intros Hf H. apply (total_scops _ (pointed_ok n)); [now apply total_one|]. revert H. apply Forall_impl. intros s Hs. destruct n; exact Hs. Qed.
Lemma total_generic_fuel n fuel gs l : (n <= fuel)%nat -> dumpable_generics cfg pointed (pointed_ok n) gs -> exists t, osl_generic_idump pointed fuel gs l = Ok t.
Proof. intros Hf H. apply (total_generic _ (pointed_ok n)); [now apply total_one|exact H]. Qed.
(** *** More steps do not change the result *)
Definition more {A} (r r' : res A) : Prop := forall t, r = Ok t -> r' = Ok t.
Lemma more_refl {A} (r : res A) : more r r. Proof. intros t H. exact H. Qed.
Lemma more_bind {A B} (r r' : res A) (k k' : A -> res B) : more r r' -> (forall v, more (k v) (k' v)) -> more (bind r k) (bind r' k').
Proof. intros H Hk t E. destruct r as [v| | |]; try discriminate. rewrite (H v eq_refl). now apply Hk. Qed.
Lemma more_nodes {A} (f f' : Z -> A -> res str) sep xs : Forall (fun x => forall n, more (f n x) (f' n x)) xs -> forall n, more (nodes f sep n xs) (nodes f' sep n xs).
Proof.
  induction 1 as [|x xs Hx H IH]; intros n; [apply more_refl|]. rewrite !nodes_cons. apply more_bind; [apply Hx|]. intros a. apply more_bind; [apply IH|]. intros b. apply more_refl.
Qed.
Section MORE.
Variable one one' : statement -> Z -> res str.
Hypothesis Hone : forall s l, more (one s l) (one' s l).
Lemma more_dependence ds l : more (osl_dependence_idump pointed one ds l) (osl_dependence_idump pointed one' ds l).
Proof.
  unfold osl_dependence_idump. apply more_bind; [|intros; apply more_refl]. apply more_nodes. apply Forall_forall. intros d _ n. unfold dependence_node.
  apply more_bind; [destruct (fst (pointed d)); [apply Hone|apply more_refl]|]. intros a. apply more_bind; [destruct (snd (pointed d)); [apply Hone|apply more_refl]|]. intros b. apply more_refl.
Qed.
Lemma more_generics f f' gs l : Forall (fun g => forall l n, more (f l n g) (f' l n g)) gs -> more (generics_idump f gs l) (generics_idump f' gs l).
Proof. intros H. unfold generics_idump. apply more_bind; [|intros; apply more_refl]. apply more_nodes. revert H. apply Forall_impl. auto. Qed.
Lemma all_more :
  (forall d k l, more (data_idump pointed one k d l) (data_idump pointed one' k d l)) /\
  (forall x l n, more (symbol_node pointed one l n x) (symbol_node pointed one' l n x)) /\
  (forall g l n, more (generic_node pointed one l n g) (generic_node pointed one' l n g)).
Proof.
  apply edata_mutual.
  - intros d Hs k l. destruct k, d; try apply more_refl; cbn [data_idump].
    + apply more_dependence.
    + apply more_bind; [|intros; apply more_refl]. apply more_nodes. generalize (Hs _ eq_refl). apply Forall_impl. auto.
  - intros t g dims a b c e Ha Hb Hc He l n. cbn [symbol_node].
    apply more_bind; [apply more_generics, Ha|]. intros ta. apply more_bind; [apply more_generics, Hb|]. intros tb. apply more_bind; [apply more_generics, Hc|]. intros tc.
    apply more_bind; [apply more_generics, He|]. intros te. apply more_refl.
  - intros i l n. cbn [generic_node]. apply more_bind; [apply more_refl|]. intros ti. apply more_bind; [|intros; apply more_refl]. destruct i as [[u k]|]; [destruct k; apply more_refl|apply more_refl].
  - intros i d Hd l n. cbn [generic_node]. apply more_bind; [apply more_refl|]. intros ti. apply more_bind; [|intros; apply more_refl]. destruct i as [[u k]|]; [apply Hd|apply more_refl].
Qed.
Lemma more_generic gs l : more (generic_idump pointed one gs l) (generic_idump pointed one' gs l).
Proof. apply more_generics. apply Forall_forall. intros g _. apply all_more. Qed.
Lemma more_statements ss l : more (statements_idump pointed one ss l) (statements_idump pointed one' ss l).
Proof.
  unfold statements_idump. apply more_bind; [|intros; apply more_refl]. apply more_nodes. apply Forall_forall. intros s _ n. unfold statement_node.
  apply more_bind; [apply more_refl|]. intros a. apply more_bind; [apply more_refl|]. intros b. apply more_bind; [apply more_refl|]. intros c. apply more_bind; [apply more_generic|]. intros; apply more_refl.
Qed.
Lemma more_scops ss l : more (scops_idump pointed one ss l) (scops_idump pointed one' ss l).
Proof.
  unfold scops_idump. apply more_bind; [|intros; apply more_refl]. apply more_nodes. apply Forall_forall. intros s _ n. unfold scop_node.
  apply more_bind; [apply more_refl|]. intros a. apply more_bind; [apply more_generic|]. intros b. apply more_bind; [apply more_statements|]. intros c. apply more_bind; [apply more_refl|]. intros e.
  apply more_bind; [apply more_generic|]. intros; apply more_refl.
Qed.
End MORE.
Lemma more_one k : forall k', (k <= k')%nat -> forall s l, more (statement_idump_one pointed k s l) (statement_idump_one pointed k' s l).
Proof.
  induction k as [|k IH]; intros k' Hk s l; [intros t H; discriminate|]. destruct k' as [|k']; [lia|]. cbn [statement_idump_one]. apply more_statements. apply IH. lia.
Qed.
End POINTED.
End TOTAL.
