(** * PropHeap4: statements and scops in memory (C10, C30, C31, C40) *)
From stdpp Require Import gmap.
From iris.proofmode Require Import tactics.
From Coq Require Import ZifyBool ZifyNat.
From Verif Require Import Base IntModel VectorModel RelationModel RelSpec RelationProofs RelationProofs2 HeapModel HeapObjects HeapSpec HeapLogic
  HeapProofs HeapProofs2 HeapProofs3 HeapProofs4 HeapProofs5 PropHeap PropHeap2 PropHeap3.
Local Open Scope string_scope.
Local Open Scope list_scope.
Local Open Scope Z_scope.

(** ** Every structure can be stored, next to anything *)
Lemma room_cell (hf : heap obj) (o : obj) : ∃ p, p ≠ NULL ∧ {[p := o]} ##ₘ hf.
Proof.
  exists (fresh ({[NULL]} ∪ dom hf)). pose proof (is_fresh ({[NULL]} ∪ dom hf)) as H. rewrite elem_of_union in H.
  split; [set_solver|]. apply map_disjoint_singleton_l, not_elem_of_dom. naive_solver.
Qed.
(** [P] can be satisfied besides any memory. *)
Definition storable (P : ptr → oprop) : Prop := ∀ hf : heap obj, ∃ p h, h ##ₘ hf ∧ P p h.
Lemma store_cell h1 (o : obj) (hf : heap obj) : h1 ##ₘ hf →
  ∃ p, p ≠ NULL ∧ {[p := o]} ##ₘ h1 ∧ ({[p := o]} ∪ h1) ##ₘ hf.
Proof.
  intros Hd. destruct (room_cell (h1 ∪ hf) o) as (p & Hp & H). exists p. split; [done|]. apply map_disjoint_union_r in H as [H1 H2].
  split; [done|]. by apply map_disjoint_union_l_2.
Qed.
Lemma store_sep (P Q : ptr → oprop) : storable P → storable Q → ∀ hf, ∃ p q h, h ##ₘ hf ∧ (P p ∗ Q q)%I h.
Proof.
  intros HP HQ hf. destruct (HP hf) as (p & h1 & D1 & H1). destruct (HQ (h1 ∪ hf)) as (q & h2 & D2 & H2).
  apply map_disjoint_union_r in D2 as [D2 D3]. exists p, q, (h1 ∪ h2). split; [by apply map_disjoint_union_l_2|]. by apply sep_intro.
Qed.
Lemma store_chain {A} (node : ptr → A → ptr → oprop) l : (∀ x n, In x l → storable (λ p, node p x n)) → storable (λ p, chain node p l).
Proof.
  induction l as [|x l IH]; intros Hx hf; cbn [chain].
  - exists NULL, ∅. split; [apply map_disjoint_empty_l|]. by split.
  - destruct (IH (λ y n Hy, Hx y n (or_intror Hy)) hf) as (n & h1 & D1 & H1). destruct (Hx x n (or_introl eq_refl) (h1 ∪ hf)) as (p & h2 & D2 & H2).
    apply map_disjoint_union_r in D2 as [D2 D3]. exists p, (h2 ∪ h1). split; [by apply map_disjoint_union_l_2|].
    exists n. by apply sep_intro.
Qed.
Lemma storable_union cfg u : wf_union cfg u → storable (λ p, runion p u).
Proof.
  induction 1 as [|r u Hr Hu IH]; intros hf; cbn [runion].
  - exists NULL, ∅. split; [apply map_disjoint_empty_l|]. by split.
  - destruct (IH hf) as (n & h1 & D1 & H1).
    assert (∃ m h2, h2 ##ₘ (h1 ∪ hf) ∧ mat_at m r h2) as (m & h2 & D2 & H2).
    { unfold mat_at. destruct ((nrows r =? 0) || (ncols r =? 0)) eqn:E.
      - exists NULL, ∅. split; [apply map_disjoint_empty_l|]. split; [done|]. split; [done|].
        destruct Hr as (_ & _ & _ & Hr & _). apply Hr. apply orb_true_iff in E. rewrite !Z.eqb_eq in E. done.
      - destruct (room_cell (h1 ∪ hf) (CMat (rm r))) as (m & Hm & D). exists m, {[m := CMat (rm r)]}. split; [done|]. by split. }
    apply map_disjoint_union_r in D2 as [D2 D3].
    destruct (store_cell (h2 ∪ h1) (CRel (header r) m n) hf) as (p & Hp & D4 & D5); [by apply map_disjoint_union_l_2|].
    exists p, ({[p := CRel (header r) m n]} ∪ (h2 ∪ h1)). split; [done|]. exists m, n. apply sep_intro; [done|by split|]. by apply sep_intro.
Qed.
Lemma storable_rlist cfg l : Forall (wf_union cfg) l → storable (λ p, rlist p l).
Proof.
  induction 1 as [|u l Hu Hl IH]; intros hf; cbn [rlist].
  - exists NULL, ∅. split; [apply map_disjoint_empty_l|]. by split.
  - destruct (store_sep _ _ (storable_union cfg u Hu) IH hf) as (e & n & h1 & D1 & H1).
    destruct (store_cell h1 (CList e n) hf D1) as (p & Hp & D4 & D5). exists p, ({[p := CList e n]} ∪ h1). split; [done|].
    exists e, n. apply sep_intro; [done|by split|done].
Qed.
Lemma storable_ilist l : storable (λ p, ilist p l).
Proof.
  apply store_chain. intros x n _ hf. destruct (room_cell hf (CIface (fst x) (snd x) n)) as (p & Hp & D).
  exists p, {[p := CIface (fst x) (snd x) n]}. split; [done|]. by destruct x.
Qed.
Lemma storable_glist l : storable (λ p, glist p l).
Proof.
  apply store_chain. intros g n _ hf.
  assert (storable (λ p, data_at p (g_data g))) as Hdat.
  { intros hf'. destruct (g_data g) as [z|]; cbn [data_at].
    - destruct (room_cell hf' (CData z)) as (p & Hp & D). exists p, {[p := CData z]}. by split.
    - exists NULL, ∅. split; [apply map_disjoint_empty_l|by split]. }
  destruct (store_sep _ _ Hdat (storable_ilist (iface_list (g_iface g))) hf) as (d & i & h1 & D1 & H1).
  destruct (store_cell h1 (CGen d i n) hf D1) as (p & Hp & D4 & D5). exists p, ({[p := CGen d i n]} ∪ h1). split; [done|].
  exists d, i. apply sep_intro; [done|by split|done].
Qed.
Lemma storable_slist cfg l : Forall (wf_stmt cfg) l → storable (λ p, slist p l).
Proof.
  intros Hl. apply store_chain. intros s n Hs hf. rewrite List.Forall_forall in Hl. destruct (Hl s Hs) as (Hd & Hsc & Ha & _).
  destruct (storable_glist (st_extension s) hf) as (e & h1 & D1 & H1).
  destruct (storable_rlist cfg _ Ha (h1 ∪ hf)) as (a & h2 & [D2 D2']%map_disjoint_union_r & H2).
  destruct (storable_union cfg _ Hsc (h2 ∪ (h1 ∪ hf))) as (sc & h3 & [D3 D3']%map_disjoint_union_r & H3). apply map_disjoint_union_r in D3' as [D3' D3''].
  destruct (storable_union cfg _ Hd (h3 ∪ (h2 ∪ (h1 ∪ hf)))) as (d & h4 & D4 & H4).
  destruct (store_cell (h4 ∪ (h3 ∪ (h2 ∪ h1))) (CStmt d sc a e n) hf) as (p & Hp & D5 & D6); [dis|].
  exists p, ({[p := CStmt d sc a e n]} ∪ (h4 ∪ (h3 ∪ (h2 ∪ h1)))). split; [done|]. exists d, sc, a, e.
  apply sep_intro; [done|by split|]. apply sep_intro; [dis|done|]. apply sep_intro; [dis|done|]. by apply sep_intro.
Qed.
Lemma storable_sclist cfg l : Forall (wf_scop cfg) l → storable (λ p, sclist p l).
Proof.
  intros Hl. apply store_chain. intros s n Hs hf. rewrite List.Forall_forall in Hl. destruct (Hl s Hs) as (Hc & _ & Hst & _).
  destruct (storable_glist (sc_extension s) hf) as (e & h1 & D1 & H1).
  destruct (storable_ilist (sc_registry s) (h1 ∪ hf)) as (r & h2 & [D2 D2']%map_disjoint_union_r & H2).
  destruct (storable_slist cfg _ Hst (h2 ∪ (h1 ∪ hf))) as (st & h3 & [D3 D3']%map_disjoint_union_r & H3). apply map_disjoint_union_r in D3' as [D3' D3''].
  destruct (storable_glist (sc_parameters s) (h3 ∪ (h2 ∪ (h1 ∪ hf)))) as (pa & h4 & D4 & H4).
  destruct (storable_union cfg _ Hc (h4 ∪ (h3 ∪ (h2 ∪ (h1 ∪ hf))))) as (c & h5 & D5 & H5).
  destruct (store_cell (h5 ∪ (h4 ∪ (h3 ∪ (h2 ∪ h1)))) (CScop (sc_version s) (sc_language s) c pa st r e n) hf) as (p & Hp & D6 & D7); [dis|].
  exists p, ({[p := CScop (sc_version s) (sc_language s) c pa st r e n]} ∪ (h5 ∪ (h4 ∪ (h3 ∪ (h2 ∪ h1))))). split; [done|]. exists c, pa, st, r, e.
  apply sep_intro; [done|by split|]. apply sep_intro; [dis|done|]. apply sep_intro; [dis|done|]. apply sep_intro; [dis|done|]. by apply sep_intro.
Qed.
(** No hypothesis of the theorems on memories is void: every well-formed scop list, and hence every statement, extension and relation list in it, is stored somewhere. *)
Theorem C40_scops_storable : ∀ cfg l, Forall (wf_scop cfg) l → ∃ h p, stores_scops h p l.
Proof.
  intros cfg l Hl. destruct (storable_sclist cfg l Hl ∅) as (p & h & _ & H). exists h, p. by apply sclist_spec.
Qed.
Print Assumptions C40_scops_storable.

(** ** C10, C31: copies of statements and scops *)
Lemma copies_wf cfg s : config_ok cfg → wf_stmt cfg s → copies s s.
Proof.
  intros Hc (Hd & Hs & Ha & He). split; [by eapply clone_ok|]. split; [by eapply clone_ok|].
  split; [by apply (clone_list_wf cfg)|by apply gclone_unique].
Qed.
Lemma copies_all cfg l : config_ok cfg → Forall (wf_stmt cfg) l → Forall2 copies l l.
Proof. intros Hc. induction 1; constructor; [by eapply copies_wf|done]. Qed.
Lemma copies_frame_wf cfg s : config_ok cfg → wf_scop cfg s → copies_frame s s.
Proof.
  intros Hc (Hx & Hp & _ & [Hr1 Hr2] & He). split; [done|]. split; [done|]. split; [by eapply clone_ok|]. split; [by apply gclone_unique|].
  split; [by apply (iclone_ok _ [])|by apply gclone_unique].
Qed.
Lemma copies_scop_wf cfg s : config_ok cfg → wf_scop cfg s → copies_scop s s.
Proof. intros Hc Hs. split; [by eapply copies_frame_wf|]. apply (copies_all cfg); [done|apply Hs]. Qed.
(** The copy of a list of well-formed statements is a new structure, disjoint from
    the source, that holds the same statements; the source is not changed. *)
Theorem C31_statement_clone : ∀ (cfg : config) (al : Allocator obj) h p l,
  config_ok cfg → Forall (wf_stmt cfg) l → stores_stmts h p l →
  runs_to (osl_statement_clone_p p) h (λ q h', ∃ hc, splits h' [h; hc] ∧ stores_stmts hc q l).
Proof.
  intros cfg al h p l Hc Hl H. apply (runs_intro (ex h (slist p l)) (λ q, ex h (slist p l) ∗ slist q l)%I).
  - iIntros "U". iApply (wp_statement_nclone h p l (-1) l); [by apply (copies_all cfg)|]. iFrame "U". iIntros (q) "U C". iFrame.
  - split; [done|]. by apply slist_spec.
  - intros q h' (h1 & h2 & -> & Hd & [-> H1] & H2). exists h2. split; [by apply splits_2|]. by apply slist_spec.
Qed.
Print Assumptions C31_statement_clone.
(** The first [n] statements, all of them when there are fewer. *)
Theorem C31_statement_nclone : ∀ (cfg : config) (al : Allocator obj) h p l n,
  config_ok cfg → 0 ≤ n → Forall (wf_stmt cfg) l → stores_stmts h p l →
  runs_to (osl_statement_nclone_p p n) h (λ q h', ∃ hc, splits h' [h; hc] ∧ stores_stmts hc q (firstn (Z.to_nat n) l)).
Proof.
  intros cfg al h p l n Hc Hn Hl H.
  apply (runs_intro (ex h (slist p l)) (λ q, ex h (slist p l) ∗ slist q (firstn (Z.to_nat n) l)))%I.
  - iIntros "U". iApply (wp_statement_nclone h p l n (firstn (Z.to_nat n) l)).
    { unfold wanted. destruct (Z.eqb_spec n (-1)); [lia|]. rewrite Z.sub_0_r. apply (copies_all cfg); [done|]. by apply Forall_take. }
    iFrame "U". iIntros (q) "U C". iFrame.
  - split; [done|]. by apply slist_spec.
  - intros q h' (h1 & h2 & -> & Hd & [-> H1] & H2). exists h2. split; [by apply splits_2|]. by apply slist_spec.
Qed.
Print Assumptions C31_statement_nclone.
Theorem C31_scop_clone : ∀ (cfg : config) (al : Allocator obj) h p l,
  config_ok cfg → Forall (wf_scop cfg) l → stores_scops h p l →
  runs_to (osl_scop_clone_p p) h (λ q h', ∃ hc, splits h' [h; hc] ∧ stores_scops hc q l).
Proof.
  intros cfg al h p l Hc Hl H. apply (runs_intro (ex h (sclist p l)) (λ q, ex h (sclist p l) ∗ sclist q l)%I).
  - iIntros "U". iApply (wp_scop_clone h p l l).
    { induction Hl; constructor; [by eapply copies_scop_wf|]. assert (∀ l, Forall (wf_scop cfg) l → Forall2 copies_scop l l) as X; [|by apply X].
      induction 1; constructor; [by eapply copies_scop_wf|done]. }
    iFrame "U". iIntros (q) "U C". iFrame.
  - split; [done|]. by apply sclist_spec.
  - intros q h' (h1 & h2 & -> & Hd & [-> H1] & H2). exists h2. split; [by apply splits_2|]. by apply sclist_spec.
Qed.
Print Assumptions C31_scop_clone.
(** The copy survives whatever happens to the memory of the source. *)
Theorem C10_scop_clone_survives : ∀ (cfg : config) (al : Allocator obj) h p l hf,
  config_ok cfg → Forall (wf_scop cfg) l → stores_scops h p l → h ##ₘ hf →
  ∃ q hc after, osl_scop_clone_p p (h ∪ hf) = Ok (q, after) ∧ stores_scops hc q l ∧
    ∀ later : heap obj, (∀ a, a ∉ dom h → later !! a = after !! a) → hc ⊆ later.
Proof.
  intros cfg al h p u hf Hc Hu H Hd.
  destruct (C31_scop_clone cfg al h p u Hc Hu H hf Hd) as (q & h' & E & Hd' & hc & (-> & Hdc)%splits_2 & Hs).
  exists q, hc, (h ∪ hc ∪ hf). split; [done|]. split; [done|]. intros later Hl. apply map_subseteq_spec. intros a v Ha.
  rewrite Hl.
  - rewrite lookup_union_l'; [|rewrite lookup_union_r; [by rewrite Ha|by eapply map_disjoint_Some_r]].
    rewrite lookup_union_r; [done|by eapply map_disjoint_Some_r].
  - apply not_elem_of_dom. by eapply map_disjoint_Some_r.
Qed.
Print Assumptions C10_scop_clone_survives.

(** ** C40: exact memory of statements and scops *)
Theorem C40_statement_free : ∀ h p l, stores_stmts h p l → runs_to (osl_statement_free_p p) h (λ _ h', h' = ∅).
Proof.
  intros h p l H. apply (runs_intro (slist p l) (λ _, emp)%I).
  - iIntros "U". iApply wp_statement_free. by iFrame.
  - by apply slist_spec.
  - done.
Qed.
Print Assumptions C40_statement_free.
Theorem C40_scop_free : ∀ h p l, stores_scops h p l → runs_to (osl_scop_free_p p) h (λ _ h', h' = ∅).
Proof.
  intros h p l H. apply (runs_intro (sclist p l) (λ _, emp)%I).
  - iIntros "U". iApply wp_scop_free. by iFrame.
  - by apply sclist_spec.
  - done.
Qed.
Print Assumptions C40_scop_free.
Theorem C40_statement_add : ∀ h1 h2 p1 p2 l1 l2, stores_stmts h1 p1 l1 → stores_stmts h2 p2 l2 → h1 ##ₘ h2 →
  runs_to (osl_statement_add_p p1 p2) (h1 ∪ h2) (λ q h', q = (if Z.eqb p1 NULL then p2 else p1) ∧ stores_stmts h' q (l1 ++ l2)).
Proof.
  intros h1 h2 p1 p2 l1 l2 H1 H2 Hd.
  apply (runs_intro (slist p1 l1 ∗ slist p2 l2) (λ q, <affine> ⌜q = if Z.eqb p1 NULL then p2 else p1⌝ ∗ slist q (l1 ++ l2)))%I.
  - iIntros "[U V]". iApply (wp_statement_add p1 l1 p2 l2). iFrame "U V". iIntros "H". by iFrame.
  - apply sep_intro; [done|by apply slist_spec..].
  - intros q h' (? & h'' & -> & _ & [-> ->] & H). rewrite left_id_L. split; [done|]. by apply slist_spec.
Qed.
Print Assumptions C40_statement_add.
Theorem C40_scop_add : ∀ h1 h2 p1 p2 l1 l2, stores_scops h1 p1 l1 → stores_scops h2 p2 l2 → h1 ##ₘ h2 →
  runs_to (osl_scop_add_p p1 p2) (h1 ∪ h2) (λ q h', q = (if Z.eqb p1 NULL then p2 else p1) ∧ stores_scops h' q (l1 ++ l2)).
Proof.
  intros h1 h2 p1 p2 l1 l2 H1 H2 Hd.
  apply (runs_intro (sclist p1 l1 ∗ sclist p2 l2) (λ q, <affine> ⌜q = if Z.eqb p1 NULL then p2 else p1⌝ ∗ sclist q (l1 ++ l2)))%I.
  - iIntros "[U V]". iApply (wp_scop_add p1 l1 p2 l2). iFrame "U V". iIntros "H". by iFrame.
  - apply sep_intro; [done|by apply sclist_spec..].
  - intros q h' (? & h'' & -> & _ & [-> ->] & H). rewrite left_id_L. split; [done|]. by apply sclist_spec.
Qed.
Print Assumptions C40_scop_add.
Theorem C40_statement_number : ∀ h p l, stores_stmts h p l →
  runs_to (osl_statement_number_p p) h (λ n h', h' = h ∧ n = Z.of_nat (List.length l)).
Proof.
  intros h p l H. apply (runs_intro (ex h (slist p l)) (λ n, <affine> ⌜n = Z.of_nat (List.length l)⌝ ∗ ex h (slist p l))%I).
  - iIntros "U". iApply (wp_statement_number h p l). iFrame "U". iIntros "U". by iFrame.
  - split; [done|]. by apply slist_spec.
  - intros r h' (h1 & h2 & -> & Hd & [Hx Hr] & [-> H2]). change (h1 = ∅) in Hx. subst h1. by rewrite left_id_L.
Qed.
Print Assumptions C40_statement_number.
(** Copy then free both: the memory is what it was without the source. *)
Theorem C40_scop_clone_free : ∀ (cfg : config) (al : Allocator obj) h p l,
  config_ok cfg → Forall (wf_scop cfg) l → stores_scops h p l →
  runs_to (q <== osl_scop_clone_p p ;; osl_scop_free_p p ;;== osl_scop_free_p q) h (λ _ h', h' = ∅).
Proof.
  intros cfg al h p l Hc Hl H. eapply runs_bind; [by apply (C31_scop_clone cfg al h p l)|].
  intros q h' (hc & (-> & Hd)%splits_2 & Hs). eapply (runs_bind _ _ _ (λ _ h', h' = hc)).
  - eapply runs_frame; [done|by apply (C40_scop_free h p l)|].
    intros _ h0 -> _. by rewrite left_id_L.
  - intros _ h' ->. by apply (C40_scop_free hc q l).
Qed.
Print Assumptions C40_scop_clone_free.

(** ** C30: removing unions *)
Lemma parts_copied_wf cfg u : config_ok cfg → wf_union cfg u → parts_copied u.
Proof.
  intros Hc Hu r v Hr. unfold wf_union in Hu. rewrite List.Forall_forall in Hu. apply Hu in Hr as Hr'.
  assert (osl_relation_nclone [r] 1 = Ok [r]) as E.
  { erewrite nclone_ok; [done|by constructor|]. unfold zlength. cbn [List.length]. lia. }
  unfold osl_relation_nclone in *. rewrite nb_components_length in E. rewrite nb_components_length.
  change (1 =? -1) with false in *. cbn iota in *.
  assert (zlength (r :: v) <? 1 = false) as ->. { apply Z.ltb_ge. unfold zlength. cbn [List.length]. lia. }
  exact E.
Qed.
Lemma piece_exists (P : list relation → Prop) (R : relation → Prop) u : (∀ u, P u ↔ u = [] ∨ Exists R u) → P u ↔ Exists P (pieces u).
Proof.
  intros HP. destruct u as [|r u]; cbn [pieces].
  - split; [intros H; by constructor|]. intros H. inversion H as [? ? H'|? ? H']; subst; [done|inversion H'].
  - rewrite HP. split.
    + intros [?|H]; [done|]. apply List.Exists_exists in H as (x & Hx & HR). apply List.Exists_exists. exists [x].
      split; [by apply (in_map (λ r, [r]))|]. rewrite HP. right. by constructor.
    + intros H. right. apply List.Exists_exists in H as (x & (y & <- & Hy)%in_map_iff & Hp). apply HP in Hp as [?|Hp]; [done|].
      apply List.Exists_exists. exists y. split; [done|]. inversion Hp as [? ? H'|? ? H']; subst; [done|inversion H'].
Qed.
Lemma pieces_length u : List.length (pieces u) = part_count u.
Proof. destruct u as [|r u]; [done|]. unfold part_count. cbn [pieces]. rewrite map_length. cbn [List.length]. lia. Qed.
Lemma pieces_single u x : In x (pieces u) → (List.length x ≤ 1)%nat.
Proof. destruct u as [|r u]; cbn [pieces]; [intros [<-|[]]; cbn; lia|]. intros (y & <- & _)%in_map_iff. cbn. lia. Qed.
Lemma unions_split s : splits_statement s (unions s (st_access s) (st_extension s)).
Proof.
  unfold unions. split; [|split].
  - rewrite -(pieces_length (st_domain s)). induction (pieces (st_domain s)) as [|d l IH]; [done|]. cbn [flat_map List.length].
    rewrite app_length map_length IH pieces_length. lia.
  - apply List.Forall_forall. intros x (d & Hd & (sc & <- & Hs)%in_map_iff)%in_flat_map. unfold with_parts, union_free. cbn [st_domain st_scattering st_access st_extension].
    apply pieces_single in Hd, Hs. done.
  - intros it date par. unfold executes.
    rewrite (piece_exists (λ d, d = [] ∨ relates_union d it [] par) (λ r, relates r it [] par)); [|done].
    rewrite (piece_exists (λ d, d = [] ∨ relates_union d date it par) (λ r, relates r date it par)); [|done].
    rewrite !List.Exists_exists. split.
    + intros [(d & Hd & Pd) (sc & Hs & Ps)]. exists (with_parts (st_access s) (st_extension s) d sc). split; [|done].
      apply in_flat_map. exists d. split; [done|]. by apply in_map.
    + intros (x & (d & Hd & (sc & <- & Hs)%in_map_iff)%in_flat_map & Pd & Ps). split; [by exists d|by exists sc].
Qed.
Lemma splittable_wf cfg s : config_ok cfg → wf_stmt cfg s → splittable s (unions s (st_access s) (st_extension s)).
Proof.
  intros Hc (Hd & Hs & Ha & He). split; [by eapply parts_copied_wf|]. split; [by eapply parts_copied_wf|]. exists (st_access s), (st_extension s).
  split; [by eapply clone_list_wf|]. split; [by apply gclone_unique|done].
Qed.
Lemma splittable_fun (cfg : config) s l l' : splittable s l → splittable s l' → l = l'.
Proof. intros (_ & _ & a & e & Ha & He & ->) (_ & _ & a' & e' & Ha' & He' & ->). rewrite Ha in Ha'. rewrite He in He'. by injection Ha' as ->; injection He' as ->. Qed.
(** The first statement of the list is split; the source is not changed, and the
    result is a new structure. *)
Theorem C30_statement : ∀ (cfg : config) (al : Allocator obj) h p s l,
  config_ok cfg → wf_stmt cfg s → stores_stmts h p (s :: l) →
  runs_to (osl_statement_remove_unions_p p) h (λ q h', ∃ hc r, splits h' [h; hc] ∧ stores_stmts hc q r ∧ splits_statement s r).
Proof.
  intros cfg al h p s l Hc Hs H.
  apply (runs_intro (ex h (slist p (s :: l))) (λ q, ex h (slist p (s :: l)) ∗ slist q (unions s (st_access s) (st_extension s)))%I).
  - iIntros "L". iDestruct (ex_chain_cons with "L") as (m h1 h2) "(H & L & %C)".
    destruct (splittable_wf cfg s Hc Hs) as (Hd & Hsc & _). destruct Hs as (_ & _ & Ha & He).
    iApply (wp_statement_remove_unions h1 p s m (st_access s) (st_extension s)); [done|done|by eapply clone_list_wf|by apply gclone_unique|].
    iFrame "H". iIntros (q) "H R". iFrame "R". iApply C. iFrame.
  - split; [done|]. by apply slist_spec.
  - intros q h' (h1 & h2 & -> & Hd & [-> H1] & H2). exists h2. eexists. split; [by apply splits_2|]. split; [by apply slist_spec|]. apply unions_split.
Qed.
Print Assumptions C30_statement.
Theorem C30_statement_null : ∀ (cfg : config) (al : Allocator obj) h, osl_statement_remove_unions_p NULL h = Ok (NULL, h).
Proof. done. Qed.
Print Assumptions C30_statement_null.

(** What osl_scop_remove_unions computes for a statement list: the last statement
    is split, of the others only the first domain and scattering parts are kept. *)
Definition scop_split (l l' : list stmt) : Prop :=
  (l = [] ∧ l' = []) ∨ ∃ l0 s r, l = l0 ++ [s] ∧ splits_statement s r ∧ l' = List.map first_parts l0 ++ r.
Lemma firstn_unions s : firstn 1 (unions s (st_access s) (st_extension s)) = [first_parts s].
Proof. unfold unions, pieces, first_parts. by destruct (st_domain s), (st_scattering s). Qed.
Lemma kept_split l : scop_split l (kept (List.map (λ s, unions s (st_access s) (st_extension s)) l)).
Proof.
  induction l as [|s l IH]; [by left|]. right. destruct l as [|s2 l].
  - exists [], s. eexists. split; [done|]. split; [apply unions_split|done].
  - destruct IH as [[? _]|(l0 & y & r & E & Hr & Hk)]; [done|]. exists (s :: l0), y, r. split; [by rewrite E|]. split; [done|].
    change (List.map first_parts (s :: l0) ++ r) with ([first_parts s] ++ (List.map first_parts l0 ++ r)). rewrite -Hk -firstn_unions. done.
Qed.
Lemma splittable_all cfg l : config_ok cfg → Forall (wf_stmt cfg) l →
  Forall2 splittable l (List.map (λ s, unions s (st_access s) (st_extension s)) l).
Proof. intros Hc. induction 1; cbn [List.map]; constructor; [by eapply splittable_wf|done]. Qed.
(** The same scop but for its statements. *)
Definition with_statements (s : scop) (l : list stmt) : scop :=
  Scop (sc_version s) (sc_language s) (sc_context s) (sc_parameters s) l (sc_registry s) (sc_extension s).
Definition split_scop (s : scop) : scop :=
  with_statements s (kept (List.map (λ s, unions s (st_access s) (st_extension s)) (sc_statement s))).
Lemma unions_scop_wf cfg s : config_ok cfg → wf_scop cfg s → unions_scop s (split_scop s).
Proof.
  intros Hc Hs. split; [exact (copies_frame_wf cfg s Hc Hs)|]. eexists. split; [apply (splittable_all cfg); [done|apply Hs]|done].
Qed.
(** What the function computes on every scop list. The source is not changed. *)
Theorem C30_scop_exact : ∀ (cfg : config) (al : Allocator obj) h p l,
  config_ok cfg → Forall (wf_scop cfg) l → stores_scops h p l →
  runs_to (osl_scop_remove_unions_p p) h (λ q h', ∃ hc leak r, splits h' [h; hc; leak] ∧ stores_scops hc q r ∧
    Forall2 (λ s s', ∃ ss, s' = with_statements s ss ∧ scop_split (sc_statement s) ss) l r ∧
    (Forall (λ s, Forall union_free (removelast (sc_statement s))) l → leak = ∅)).
Proof.
  intros cfg al h p l Hc Hl H.
  apply (runs_intro (ex h (sclist p l)) (λ q, ∃ leak : oprop, ex h (sclist p l) ∗ sclist q (List.map split_scop l) ∗ leak ∗
     <affine> ⌜Forall lossless l → leak ⊢ emp⌝)%I).
  - iIntros "L". iApply (wp_scop_remove_unions h p l (List.map split_scop l)).
    { clear H. induction Hl; cbn [List.map]; constructor; [by eapply unions_scop_wf|done]. }
    iFrame "L". iIntros (q leak) "L R K %Hk". iExists leak. by iFrame.
  - split; [done|]. by apply sclist_spec.
  - intros q h' (leak & h1 & h2 & -> & Hd & [-> H1] & h3 & h4 & -> & Hd2 & H3 & h5 & h6 & -> & Hd3 & H5 & [Hx Hk]).
    change (h6 = ∅) in Hx. subst h6. rewrite (right_id_L ∅ (∪)) in Hd2. rewrite (right_id_L ∅ (∪)) in Hd. rewrite (right_id_L ∅ (∪)).
    exists h3, h5. eexists. split; [apply splits_3; split_and!; [done|done|done]|]. split; [by apply sclist_spec|]. split.
    + clear. induction l as [|s l IH]; cbn [List.map]; constructor; [|done]. eexists. split; [done|]. apply kept_split.
    + intros Hf. assert (leak ⊢ emp) as [He]; [|by apply (He h5 H5)]. apply Hk. clear Hk.
      revert Hl Hf. clear -Hc. induction 1 as [|s l Hs Hl IH]; intros Hf; [constructor|]. inversion Hf as [|? ? Hf1 Hf2]; subst.
      constructor; [|by apply IH]. intros ll Hll.
      assert (ll = List.map (λ s, unions s (st_access s) (st_extension s)) (sc_statement s)) as ->.
      { destruct Hs as (_ & _ & Hs & _). revert Hs ll Hll. clear -Hc. generalize (sc_statement s). intros ss.
        induction 1 as [|x ss Hx Hss IH]; intros ll Hll; inversion Hll; subst; [done|]. cbn [List.map]. f_equal; [|by apply IH].
        eapply (splittable_fun cfg); [done|by eapply splittable_wf]. }
      revert Hf1. clear. generalize (sc_statement s). intros ss. induction ss as [|x ss IH]; [constructor|]. destruct ss as [|y ss]; [constructor|].
      change (removelast (List.map ?f (x :: y :: ss))) with (f x :: removelast (List.map f (y :: ss))). change (removelast (x :: y :: ss)) with (x :: removelast (y :: ss)).
      intros Hf. inversion Hf as [|? ? [Hd Hs] Hf2]; subst. constructor; [|by apply IH].
      destruct (unions_split x) as (-> & _). unfold part_count. lia.
Qed.
Print Assumptions C30_scop_exact.
Lemma first_parts_free s : union_free s → first_parts s = s.
Proof. intros [Hd Hs]. unfold first_parts. rewrite !firstn_all2; [by destruct s|lia|lia]. Qed.
(** The promise, for the scops where only the last statement has unions. *)
Theorem C30_scop_last : ∀ (cfg : config) (al : Allocator obj) h p l,
  config_ok cfg → Forall (wf_scop cfg) l → stores_scops h p l → Forall (λ s, Forall union_free (removelast (sc_statement s))) l →
  runs_to (osl_scop_remove_unions_p p) h (λ q h', ∃ hc r, splits h' [h; hc] ∧ stores_scops hc q r ∧
    Forall2 (λ s s', Forall union_free (sc_statement s') ∧ s = with_statements s' (sc_statement s) ∧
      ∀ it date par, Exists (λ x, executes x it date par) (sc_statement s) ↔ Exists (λ x, executes x it date par) (sc_statement s')) l r).
Proof.
  intros cfg al h p l Hc Hl H Hf. eapply runs_weaken; [by apply (C30_scop_exact cfg al h p l)|].
  intros q h' (hc & leak & r & Hs & Hr & HF & Hk). rewrite Hk in Hs; [|done]. apply splits_3 in Hs. rewrite right_id_L in Hs.
  destruct Hs as (-> & Hd & _). exists hc, r. split; [by apply splits_2|]. split; [done|].
  revert Hf HF. clear. intros Hf HF. induction HF as [|s s' l r (ss & -> & Hss) HF IH]; constructor; [|by apply IH; inversion Hf].
  inversion Hf as [|? ? Hfs _]; subst. unfold with_statements. cbn [sc_version sc_language sc_context sc_parameters sc_statement sc_registry sc_extension].
  destruct Hss as [[E ->]|(l0 & y & ry & E & (_ & Hy & Hex) & ->)].
  - split; [constructor|]. split; [by destruct s|]. by rewrite E.
  - rewrite E removelast_last in Hfs.
    assert (List.map first_parts l0 = l0) as ->.
    { rewrite -{2}(map_id l0). apply map_ext_in. intros x Hx. rewrite List.Forall_forall in Hfs. by apply first_parts_free, Hfs. }
    split; [|split; [by destruct s|]].
    + apply Forall_app. split; [done|]. eapply Forall_impl; [|exact Hy]. by intros x (? & _).
    + intros it date par. rewrite E !Exists_app. rewrite -(Hex it date par). split; intros [?|Hx]; [by left| |by left|].
      * right. inversion Hx as [? ? H'|? ? H']; subst; [done|inversion H'].
      * right. by constructor.
Qed.
Print Assumptions C30_scop_last.
(** The promise in general is false: a scop with two statements, the first one
    executing the iterations 0 and 1; after union removal the iteration 1 is not
    executed any more. *)
Definition lostr (k : Z) : relation := mkrel TYPE_DOMAIN 64 1 3 1 0 0 0 [[0; 1; - k]].
Definition lost_scop : scop :=
  Scop 1 None [] [] [Stmt [lostr 0; lostr 1] [] [] []; Stmt [lostr 5] [] [] []] [] [].
Lemma lostr_relates k i : relates (lostr k) [i] [] [] ↔ i = k.
Proof.
  unfold relates, in_part. split.
  - intros (_ & _ & _ & loc & Hl & _ & H). destruct loc as [|? ?]; [|unfold zlength in Hl; cbn [List.length] in Hl; cbn in Hl; lia].
    inversion H as [|? ? H' _]; subst. cbn in H'. lia.
  - intros ->. split; [done|]. split; [done|]. split; [done|]. exists []. split; [done|]. split; [done|]. constructor; [|constructor]. cbn. lia.
Qed.
Lemma lost_scop_wf : wf_scop lp64_debug lost_scop.
Proof.
  assert (∀ k, -10 ≤ k ≤ 10 → wf_rel lp64_debug (lostr k)) as Hr.
  { intros k Hk. unfold wf_rel, lostr; cbn [rtype rprec nrows ncols nout nin nloc npar rm]. LoopLemmas.wf_lit. }
  assert (unique_gens []) as Hg. { split; constructor. }
  split; [constructor|]. split; [done|]. split; [|split; [split; constructor|done]].
  constructor; [|constructor; [|constructor]]; (split; [|split; [constructor|split; [constructor|done]]]); cbn [st_domain]; unfold wf_union; repeat (apply Forall_cons_2; [apply Hr; lia|]); apply Forall_nil_2.
Qed.
Theorem C30_scop_refuted : ∃ s it, wf_scop lp64_debug s ∧ Exists (λ x, executes x it [] []) (sc_statement s) ∧
  ∀ (al : Allocator obj) h p, stores_scops h p [s] →
    runs_to (@osl_scop_remove_unions_p lp64_debug al p) h (λ q h', ∃ hc s', hc ⊆ h' ∧ stores_scops hc q [s'] ∧
      ¬ Exists (λ x, executes x it [] []) (sc_statement s')).
Proof.
  exists lost_scop, [1]. split; [apply lost_scop_wf|]. split.
  - constructor. unfold executes. cbn [st_domain st_scattering]. split; [|by left]. right. apply Exists_cons_tl. constructor. by apply lostr_relates.
  - intros al h p H. eapply runs_weaken; [apply (C30_scop_exact lp64_debug al h p [lost_scop]); [by right|by constructor; [apply lost_scop_wf|constructor]|done]|].
    intros q h' (hc & leak & r & Hs & Hr & HF & _). inversion HF as [|? s' ? r' (ss & -> & Hss) HF']; subst. inversion HF'; subst.
    exists hc. eexists. split; [|split; [exact Hr|]].
    + apply splits_3 in Hs as (-> & Hd & Hd'). apply map_union_subseteq_r' ; [done|]. apply map_union_subseteq_l.
    + cbn [with_statements sc_statement]. destruct Hss as [[? _]|(l0 & y & ry & E & (_ & _ & Hex) & ->)]; [done|].
      destruct l0 as [|x0 [|x1 [|x2 l0]]]; cbn [app] in E; [discriminate E| |discriminate E|discriminate E].
      injection E as <- <-. rewrite Exists_app -Hex. unfold first_parts, executes. cbn [List.map st_domain st_scattering firstn].
      intros [Hx|[[?|Hx] _]]; [|done|].
      * inversion Hx as [? ? [[?|Hy] _]|? ? Hy]; subst; [done| |inversion Hy].
        inversion Hy as [? ? Hz|? ? Hz]; subst; [apply lostr_relates in Hz; done|inversion Hz].
      * inversion Hx as [? ? Hz|? ? Hz]; subst; [apply lostr_relates in Hz; done|inversion Hz].
Qed.
Print Assumptions C30_scop_refuted.
(** The lost statements are also leaked: after freeing the source and the result, they are still allocated. *)
Definition lost_heap : heap obj :=
  {[1 := CScop 1 None NULL NULL 2 NULL NULL NULL]} ∪ ({[2 := CStmt 10 NULL NULL NULL 3]} ∪
    (({[10 := CRel (header (lostr 0)) 11 12]} ∪ ({[11 := CMat (rm (lostr 0))]} ∪
      ({[12 := CRel (header (lostr 1)) 13 NULL]} ∪ {[13 := CMat (rm (lostr 1))]}))) ∪
    ({[3 := CStmt 20 NULL NULL NULL NULL]} ∪ ({[20 := CRel (header (lostr 5)) 21 NULL]} ∪ {[21 := CMat (rm (lostr 5))]})))).
Ltac cdis := apply map_disjoint_dom; apply (bool_decide_unpack _); vm_compute; exact I.
Lemma lost_heap_ok : stores_scops lost_heap 1 [lost_scop].
Proof.
  cbn [stores_scops].
  set (hu := {[10 := CRel (header (lostr 0)) 11 12]} ∪ ({[11 := CMat (rm (lostr 0))]} ∪
      ({[12 := CRel (header (lostr 1)) 13 NULL]} ∪ {[13 := CMat (rm (lostr 1))]})) : heap obj).
  set (hv := {[20 := CRel (header (lostr 5)) 21 NULL]} ∪ {[21 := CMat (rm (lostr 5))]} : heap obj).
  set (hs2 := {[3 := CStmt 20 NULL NULL NULL NULL]} ∪ hv : heap obj).
  set (hs := {[2 := CStmt 10 NULL NULL NULL 3]} ∪ (hu ∪ hs2) : heap obj).
  exists NULL, NULL, 2, NULL, NULL, NULL, ∅, ∅, hs, ∅, ∅, ∅. split; [done|]. split.
  { exists hs. split; [by rewrite ?right_id_L|]. split; [cdis|]. exists hs. split; [by rewrite left_id_L|]. split; [cdis|]. exists hs. split; [by rewrite left_id_L|]. split; [cdis|].
    exists ∅. split; [by rewrite right_id_L|]. split; [cdis|]. exists ∅. split; [by rewrite left_id_L|]. split; [cdis|]. exists ∅. split; [by rewrite left_id_L|]. split; [cdis|]. exists ∅. split; [by rewrite left_id_L|]. split; [cdis|done]. }
  split; [done|]. split; [done|]. split; [|done]. cbn [sc_statement lost_scop stores_stmts].
  exists 10, NULL, NULL, NULL, 3, hu, ∅, ∅, ∅, hs2. split; [done|]. split.
  { exists (hu ∪ hs2). split; [done|]. split; [cdis|]. exists hs2. split; [done|]. split; [cdis|]. exists hs2. split; [by rewrite left_id_L|]. split; [cdis|].
    exists hs2. split; [by rewrite left_id_L|]. split; [cdis|]. exists hs2. split; [by rewrite left_id_L|]. split; [cdis|].
    exists ∅. split; [by rewrite right_id_L|]. split; [cdis|done]. }
  split.
  { exists 11, 12, {[11 := CMat (rm (lostr 0))]}, ({[12 := CRel (header (lostr 1)) 13 NULL]} ∪ {[13 := CMat (rm (lostr 1))]}). split; [done|]. split.
    { apply splits_3. split; [by rewrite ?right_id_L|]. split; cdis. }
    split; [done|]. exists 13, NULL, {[13 := CMat (rm (lostr 1))]}, ∅. split; [done|]. split; [|done]. apply splits_3. split; [by rewrite ?right_id_L|]. split; cdis. }
  split; [done|]. split; [done|]. split; [done|].
  exists 20, NULL, NULL, NULL, NULL, hv, ∅, ∅, ∅, ∅. split; [done|]. split.
  { exists hv. split; [done|]. split; [cdis|]. exists ∅. split; [by rewrite right_id_L|]. split; [cdis|]. exists ∅. split; [by rewrite left_id_L|]. split; [cdis|].
    exists ∅. split; [by rewrite left_id_L|]. split; [cdis|]. exists ∅. split; [by rewrite left_id_L|]. split; [cdis|]. exists ∅. split; [by rewrite left_id_L|]. split; [cdis|done]. }
  split; [|done].
  exists 21, NULL, {[21 := CMat (rm (lostr 5))]}, ∅. split; [done|]. split; [|done]. apply splits_3. split; [by rewrite ?right_id_L|]. split; cdis.
Qed.
Theorem C40_scop_remove_unions_refuted : ∃ h p s, wf_scop lp64_debug s ∧ stores_scops h p [s] ∧
  match (q <== @osl_scop_remove_unions_p lp64_debug (bump_allocator obj) p ;; osl_scop_free_p p ;;== osl_scop_free_p q) h with
  | Ok (_, h') => h' ≠ ∅
  | _ => False
  end.
Proof.
  exists lost_heap, 1, lost_scop. split; [apply lost_scop_wf|]. split; [apply lost_heap_ok|].
  vm_compute. discriminate.
Qed.
Print Assumptions C40_scop_remove_unions_refuted.
(** Splitting a statement with two domain parts and two scattering parts, the case the statement theorem is about. *)
Example split_example : let s := Stmt [lostr 0; lostr 1] [lostr 3; lostr 4] [[lostr 7]] [Gen (Some 5) (Some (Some (lit "body"), 1))] in
  wf_stmt lp64_debug s ∧ unions s (st_access s) (st_extension s) =
   [Stmt [lostr 0] [lostr 3] (st_access s) (st_extension s); Stmt [lostr 0] [lostr 4] (st_access s) (st_extension s);
    Stmt [lostr 1] [lostr 3] (st_access s) (st_extension s); Stmt [lostr 1] [lostr 4] (st_access s) (st_extension s)].
Proof.
  split; [|done].
  assert (∀ k, -10 ≤ k ≤ 10 → wf_rel lp64_debug (lostr k)) as Hr.
  { intros k Hk. unfold wf_rel, lostr; cbn [rtype rprec nrows ncols nout nin nloc npar rm]. LoopLemmas.wf_lit. }
  split; [|split; [|split]]; cbn [st_domain st_scattering st_access st_extension];
    [unfold wf_union; repeat (apply Forall_cons_2; [apply Hr; lia|]); apply Forall_nil_2|unfold wf_union; repeat (apply Forall_cons_2; [apply Hr; lia|]); apply Forall_nil_2| |].
  { constructor; [|constructor]. constructor; [apply Hr; lia|constructor]. }
  split; [by repeat constructor|]. constructor; [by intros []|constructor].
Qed.
