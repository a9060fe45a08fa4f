(** * PropHeap: linked structures in memory (C10, C22, C40) *)
From stdpp Require Import gmap.
From iris.proofmode Require Import tactics.
From Coq Require Import ZifyBool ZifyNat.
From Verif Require Import Base IntModel VectorModel RelationModel RelSpec RelationProofs RelationProofs2 HeapModel HeapObjects HeapSpec HeapLogic HeapProofs.
From Verif Require PropRelation.
Local Open Scope string_scope.
Local Open Scope list_scope.
Local Open Scope Z_scope.

(** ** From the logic to plain memories *)
Lemma splits_cons h a l : splits h (a :: l) ↔ ∃ h', h = a ∪ h' ∧ a ##ₘ h' ∧ splits h' l.
Proof. done. Qed.
Lemma splits_2 h a b : splits h [a; b] ↔ h = a ∪ b ∧ a ##ₘ b.
Proof.
  cbn [splits]. split.
  - intros (h' & -> & Hd & h'' & -> & _ & ->). rewrite right_id_L. rewrite right_id_L in Hd. done.
  - intros [-> Hd]. exists b. split_and!; [done|done|]. exists ∅. rewrite right_id_L. split_and!; [done|apply map_disjoint_empty_r|done].
Qed.
Lemma splits_3 h a b c : splits h [a; b; c] ↔ h = a ∪ (b ∪ c) ∧ a ##ₘ b ∪ c ∧ b ##ₘ c.
Proof.
  rewrite splits_cons. setoid_rewrite splits_2. naive_solver.
Qed.
Lemma mat_at_spec h m r : mat_at m r h ↔ stores_matrix h m r.
Proof.
  unfold mat_at, stores_matrix. destruct (_ || _).
  - split; [by intros [-> [-> ?]]|by intros (-> & -> & ?)].
  - split; [by intros [-> ?]|by intros (-> & ?)].
Qed.
Lemma rseg_spec u q : ∀ h p, rseg p u q h ↔ stores_parts h p u q.
Proof.
  induction u as [|r u IH]; intros h p; cbn [rseg stores_parts].
  - split; [by intros [-> ->]|by intros (-> & ->)].
  - split.
    + intros (m & n & h1 & h23 & -> & Hd & [-> Hp] & h2 & h3 & -> & Hd' & H2 & H3).
      exists m, n, h2, h3. split; [done|]. split; [apply splits_3; done|]. split; [by apply mat_at_spec|by apply IH].
    + intros (m & n & h2 & h3 & Hp & (-> & Hd & Hd')%splits_3 & H2 & H3). exists m, n.
      eexists _, (h2 ∪ h3). split; [done|]. split; [done|]. split; [by split|]. exists h2, h3.
      split; [done|]. split; [done|]. split; [by apply mat_at_spec|by apply IH].
Qed.
Lemma runion_rseg u : ∀ p, runion p u ⊣⊢ rseg p u NULL.
Proof.
  induction u as [|r u IH]; intros p; cbn [runion rseg]; [done|]. by setoid_rewrite IH.
Qed.
Lemma runion_spec h p u : runion p u h ↔ stores_union h p u.
Proof. unfold stores_union. rewrite -rseg_spec. pose proof (runion_rseg u p) as [H]. apply H. Qed.
Lemma rlist_spec l : ∀ h p, rlist p l h ↔ stores_list h p l.
Proof.
  induction l as [|u l IH]; intros h p; cbn [rlist stores_list].
  - split; [by intros [-> ->]|by intros (-> & ->)].
  - split.
    + intros (e & n & h1 & h23 & -> & Hd & [-> Hp] & h2 & h3 & -> & Hd' & H2 & H3).
      exists e, n, h2, h3. split; [done|]. split; [apply splits_3; done|]. split; [by apply runion_spec|by apply IH].
    + intros (e & n & h2 & h3 & Hp & (-> & Hd & Hd')%splits_3 & H2 & H3). exists e, n.
      eexists _, (h2 ∪ h3). split; [done|]. split; [done|]. split; [by split|]. exists h2, h3.
      split; [done|]. split; [done|]. split; [by apply runion_spec|by apply IH].
Qed.
Lemma runs_intro {A} (P : oprop) (Q' : A → oprop) c h (Q : A → heap obj → Prop) : (P ⊢ wp c Q') → P h → (∀ a h', Q' a h' → Q a h') → runs_to c h Q.
Proof.
  intros [HP] H HQ hf Hd. destruct (HP h H hf Hd) as (a & h' & E & Hd' & H'). exists a, h'. eauto.
Qed.
Lemma sep_intro (P1 P2 : oprop) h1 h2 : h1 ##ₘ h2 → P1 h1 → P2 h2 → (P1 ∗ P2)%I (h1 ∪ h2).
Proof. intros Hd H1 H2. exists h1, h2. done. Qed.

Lemma clone_list_wf cfg l : config_ok cfg → Forall (wf_union cfg) l → clone_list l = Ok l.
Proof.
  intros Hc. induction 1 as [|u l Hu Hl IH]; [done|]. unfold clone_list in *. cbn [mapM].
  rewrite clone_ok; [|done]. cbn [bind]. by rewrite IH.
Qed.

(** ** C10: a copy is equal and independent *)

(** The copy of a well-formed union is a new structure, disjoint from the source,
    that holds the same union; the memory of the source is not changed. *)
Theorem C10_clone_independent : ∀ (cfg : config) (al : Allocator obj) h p u,
  config_ok cfg → wf_union cfg u → stores_union h p u →
  runs_to (osl_relation_clone_p p) h (λ q h', ∃ hc, splits h' [h; hc] ∧ stores_union hc q u).
Proof.
  intros cfg al h p u Hc Hu H.
  apply (runs_intro (ex h (runion p u)) (λ q, ex h (runion p u) ∗ runion q u)%I).
  - iIntros "U". iApply (wp_relation_clone h p u u); [by apply clone_ok|]. iFrame "U". iIntros (q) "U C". iFrame.
  - split; [done|]. by apply runion_spec.
  - intros q h' (h1 & h2 & -> & Hd & [-> H1] & H2). exists h2. split; [by apply splits_2|]. by apply runion_spec.
Qed.
Print Assumptions C10_clone_independent.

Theorem C10_nclone_independent : ∀ (cfg : config) (al : Allocator obj) h p u n,
  config_ok cfg → wf_union cfg u → 0 ≤ n ≤ Z.of_nat (List.length u) → stores_union h p u →
  runs_to (osl_relation_nclone_p p n) h (λ q h', ∃ hc, splits h' [h; hc] ∧ stores_union hc q (firstn (Z.to_nat n) u)).
Proof.
  intros cfg al h p u n Hc Hu Hn H.
  apply (runs_intro (ex h (runion p u)) (λ q, ex h (runion p u) ∗ runion q (firstn (Z.to_nat n) u)))%I.
  - iIntros "U". iApply (wp_relation_nclone h p u n); [by apply nclone_ok|]. iFrame "U". iIntros (q) "U C". iFrame.
  - split; [done|]. by apply runion_spec.
  - intros q h' (h1 & h2 & -> & Hd & [-> H1] & H2). exists h2. split; [by apply splits_2|]. by apply runion_spec.
Qed.
Print Assumptions C10_nclone_independent.

Theorem C10_list_clone_independent : ∀ (cfg : config) (al : Allocator obj) h p l,
  config_ok cfg → Forall (wf_union cfg) l → stores_list h p l →
  runs_to (osl_relation_list_clone_p p) h (λ q h', ∃ hc, splits h' [h; hc] ∧ stores_list hc q l).
Proof.
  intros cfg al h p l Hc Hl H.
  apply (runs_intro (ex h (rlist p l)) (λ q, ex h (rlist p l) ∗ rlist q l)%I).
  - iIntros "U". iApply (wp_list_clone h p l l); [by apply (clone_list_wf cfg)|]. iFrame "U". iIntros (q) "U C". iFrame.
  - split; [done|]. by apply rlist_spec.
  - intros q h' (h1 & h2 & -> & Hd & [-> H1] & H2). exists h2. split; [by apply splits_2|]. by apply rlist_spec.
Qed.
Print Assumptions C10_list_clone_independent.

(** Whatever is done later to the memory of the source — written, freed, allocated
    again — the copy is still there, unchanged. *)
Theorem C10_clone_survives : ∀ (cfg : config) (al : Allocator obj) h p u hf,
  config_ok cfg → wf_union cfg u → stores_union h p u → h ##ₘ hf →
  ∃ q hc after, osl_relation_clone_p p (h ∪ hf) = Ok (q, after) ∧ stores_union hc q u ∧
    ∀ later : heap obj, (∀ a, a ∉ dom h → later !! a = after !! a) → hc ⊆ later.
Proof.
  intros cfg al h p u hf Hc Hu H Hd.
  destruct (C10_clone_independent cfg al h p u Hc Hu H hf Hd) as (q & h' & E & Hd' & hc & (-> & Hdc)%splits_2 & Hs).
  exists q, hc, (h ∪ hc ∪ hf). split; [done|]. split; [done|]. intros later Hl. apply map_subseteq_spec. intros a v Ha.
  rewrite Hl.
  - rewrite lookup_union_l'; [|rewrite lookup_union_r; [by rewrite Ha|by eapply map_disjoint_Some_r]].
    rewrite lookup_union_r; [done|by eapply map_disjoint_Some_r].
  - apply not_elem_of_dom. by eapply map_disjoint_Some_r.
Qed.
Print Assumptions C10_clone_survives.

(** ** C40: exact memory of unions *)
Theorem C40_relation_free : ∀ h p u, stores_union h p u → runs_to (osl_relation_free_p p) h (λ _ h', h' = ∅).
Proof.
  intros h p u H. apply (runs_intro (runion p u) (λ _, emp)%I).
  - iIntros "U". iApply wp_relation_free. by iFrame.
  - by apply runion_spec.
  - done.
Qed.
Print Assumptions C40_relation_free.

Theorem C40_relation_add : ∀ h1 h2 p1 p2 u1 u2, stores_union h1 p1 u1 → stores_union h2 p2 u2 → h1 ##ₘ h2 →
  runs_to (osl_relation_add_p p1 p2) (h1 ∪ h2) (λ q h', q = (if Z.eqb p1 NULL then p2 else p1) ∧ stores_union h' q (u1 ++ u2)).
Proof.
  intros h1 h2 p1 p2 u1 u2 H1 H2 Hd.
  apply (runs_intro (runion p1 u1 ∗ runion p2 u2) (λ q, <affine> ⌜q = if Z.eqb p1 NULL then p2 else p1⌝ ∗ runion q (u1 ++ u2)))%I.
  - iIntros "[U V]". iApply (wp_relation_add p1 u1 p2 u2). iFrame "U V". iIntros "H". by iFrame.
  - apply sep_intro; [done|by apply runion_spec..].
  - intros q h' (? & h'' & -> & _ & [-> ->] & H). rewrite left_id_L. split; [done|]. by apply runion_spec.
Qed.
Print Assumptions C40_relation_add.

Theorem C40_relation_union : ∀ (cfg : config) (al : Allocator obj) h1 h2 p1 p2 u1 u2,
  config_ok cfg → wf_union cfg u1 → wf_union cfg u2 →
  stores_union h1 p1 u1 → stores_union h2 p2 u2 → h1 ##ₘ h2 →
  runs_to (osl_relation_union_p p1 p2) (h1 ∪ h2)
    (λ q h', ∃ hc, splits h' [h1; h2; hc] ∧ stores_union hc q (u1 ++ u2)).
Proof.
  intros cfg al h1 h2 p1 p2 u1 u2 Hc W1 W2 H1 H2 Hd.
  apply (runs_intro (ex h1 (runion p1 u1) ∗ ex h2 (runion p2 u2))
    (λ q, ex h1 (runion p1 u1) ∗ ex h2 (runion p2 u2) ∗ runion q (u1 ++ u2)))%I.
  - iIntros "[U V]". iApply (wp_relation_union h1 h2 p1 u1 p2 u2 (u1 ++ u2)); [by apply union_ok|].
    iFrame "U V". iIntros (h) "U V H". iFrame.
  - apply sep_intro; [done|split; [done|by apply runion_spec]..].
  - intros q h' (h1' & h23 & -> & Hd1 & [-> _] & h2' & hc & -> & Hd2 & [-> _] & H). exists hc.
    split; [by apply splits_3|]. by apply runion_spec.
Qed.
Print Assumptions C40_relation_union.

(** A part other than the first one is unlinked and freed. *)
Theorem C40_remove_part : ∀ h hl hp hr p a u q r n v,
  splits h [hl; hp; hr] → stores_parts hl p (a :: u) q → stores_parts hp q [r] n → stores_union hr n v →
  runs_to (osl_relation_remove_part_p p q) h (λ p' h', p' = p ∧ stores_union h' p (a :: u ++ v)).
Proof.
  intros h hl hp hr p a u q r n v (-> & Hd1 & Hd2)%splits_3 H1 H2 H3.
  cbn [stores_parts] in H2. destruct H2 as (m & n' & hm & hn & Hq & (-> & Hd3 & Hd4)%splits_3 & Hm & -> & ->).
  rewrite right_id_L in Hd3 Hd2 Hd1 |- *. clear Hd4.
  apply (runs_intro (rseg p (a :: u) q ∗ (q ↦ CRel (header r) m n ∗ mat_at m r) ∗ runion n v)
    (λ p', <affine> ⌜p' = p⌝ ∗ runion p (a :: u ++ v)))%I.
  - iIntros "(S & (H & M) & V)". iApply (wp_remove_part p a u q r m n v). iFrame "S H M V". iIntros "H". by iFrame.
  - apply sep_intro; [done|by apply rseg_spec|]. apply sep_intro; [done| |by apply runion_spec].
    apply sep_intro; [done|by split|by apply mat_at_spec].
  - intros q' h' (? & h'' & -> & _ & [-> ->] & H). rewrite left_id_L. split; [done|]. by apply runion_spec.
Qed.
Print Assumptions C40_remove_part.

(** A part that is not in the union: nothing happens. *)
Theorem C40_remove_part_absent : ∀ h p u part, stores_union h p u → h !! part = None →
  runs_to (osl_relation_remove_part_p p part) h (λ p' h', p' = p ∧ h' = h).
Proof.
  intros h p u part H Hp.
  apply (runs_intro (ex h (runion p u)) (λ p', <affine> ⌜p' = p⌝ ∗ ex h (runion p u)))%I.
  - iIntros "U". iApply (wp_remove_part_absent part h p u); [done|]. iFrame "U". iIntros "$". done.
  - split; [done|]. by apply runion_spec.
  - intros p' h' (? & h'' & -> & _ & [-> ->] & [-> H']). by rewrite left_id_L.
Qed.
Print Assumptions C40_remove_part_absent.

(** Removing the first part: the rest is the result, but the removed part is
    neither freed nor returned, so it is lost (a leak). *)
Theorem C40_remove_part_head_refuted : ∀ h hp hr p r n v,
  splits h [hp; hr] → stores_parts hp p [r] n → stores_union hr n v →
  runs_to (osl_relation_remove_part_p p p) h (λ q h', q = n ∧ stores_union hr q v ∧ hp ≠ ∅ ∧ splits h' [hp; hr]).
Proof.
  intros h hp hr p r n v (-> & Hd)%splits_2 H2 H3. pose proof H2 as H2'.
  cbn [stores_parts] in H2. destruct H2 as (m & n' & hm & hn & Hq & (-> & Hd3 & Hd4)%splits_3 & Hm & -> & ->).
  rewrite right_id_L in Hd Hd3 H2' |- *. clear Hd4.
  set (hp := {[p := CRel (header r) m n]} ∪ hm) in *.
  assert (Hex : ({[p := CRel (header r) m n]} : heap obj) ##ₘ hm ∪ hr) by (subst hp; solve_map_disjoint).
  intros hf Hf.
  destruct (runs_intro (p ↦ CRel (header r) m n) (λ q, <affine> ⌜q = n⌝ ∗ p ↦ CRel (header r) m n)%I
    (osl_relation_remove_part_p p p) {[p := CRel (header r) m n]}
    (λ q h', q = n ∧ h' = {[p := CRel (header r) m n]})) with (hf := hm ∪ hr ∪ hf) as (q & h' & E & Hd' & -> & ->).
  - iIntros "H". iApply wp_remove_part_head. iFrame "H". iIntros "H". by iFrame.
  - by split.
  - intros q h' (? & h'' & -> & _ & [-> ->] & [-> _]). by rewrite left_id_L.
  - subst hp. apply map_disjoint_union_l in Hf as [[Hf1 Hf2]%map_disjoint_union_l Hf3]. solve_map_disjoint.
  - exists n, (hp ∪ hr). split; [subst hp; rewrite -!assoc_L; rewrite -!assoc_L in E; done|]. split; [done|].
    split; [done|]. split; [done|]. split.
    + subst hp. intros Hz. apply (f_equal (.!! p)) in Hz. rewrite lookup_empty in Hz.
      by rewrite lookup_union_l' ?lookup_singleton in Hz; eauto.
    + by apply splits_2.
Qed.
Print Assumptions C40_remove_part_head_refuted.

Theorem C40_list_free : ∀ h p l, stores_list h p l → runs_to (osl_relation_list_free_p p) h (λ _ h', h' = ∅).
Proof.
  intros h p u H. apply (runs_intro (rlist p u) (λ _, emp)%I).
  - iIntros "U". iApply wp_list_free. by iFrame.
  - by apply rlist_spec.
  - done.
Qed.
Print Assumptions C40_list_free.

(** ** C22: lists of relations *)
Theorem C22_add : ∀ h1 h2 p1 p2 l1 l2, stores_list h1 p1 l1 → stores_list h2 p2 l2 → h1 ##ₘ h2 →
  runs_to (osl_relation_list_add_p p1 p2) (h1 ∪ h2) (λ q h', stores_list h' q (l1 ++ l2)).
Proof.
  intros h1 h2 p1 p2 l1 l2 H1 H2 Hd.
  apply (runs_intro (rlist p1 l1 ∗ rlist p2 l2) (λ q, rlist q (l1 ++ l2)))%I.
  - iIntros "[U V]". iApply (wp_list_add p1 l1 p2 l2). iFrame "U V". by iIntros (q) "$".
  - apply sep_intro; [done|by apply rlist_spec..].
  - intros q h' H. by apply rlist_spec.
Qed.
Print Assumptions C22_add.

Theorem C22_concat : ∀ (cfg : config) (al : Allocator obj) h1 h2 p1 p2 l1 l2,
  config_ok cfg → Forall (wf_union cfg) l1 → Forall (wf_union cfg) l2 →
  stores_list h1 p1 l1 → stores_list h2 p2 l2 → h1 ##ₘ h2 →
  runs_to (osl_relation_list_concat_p p1 p2) (h1 ∪ h2)
    (λ q h', ∃ hc, splits h' [h1; h2; hc] ∧ stores_list hc q (l1 ++ l2)).
Proof.
  intros cfg al h1 h2 p1 p2 l1 l2 Hc W1 W2 H1 H2 Hd.
  apply (runs_intro (ex h1 (rlist p1 l1) ∗ ex h2 (rlist p2 l2))
    (λ q, ex h1 (rlist p1 l1) ∗ ex h2 (rlist p2 l2) ∗ rlist q (l1 ++ l2)))%I.
  - iIntros "[U V]". iApply (wp_list_concat h1 h2 p1 l1 p2 l2 l1 l2); [by apply (clone_list_wf cfg)..|].
    iFrame "U V". iIntros (h) "U V H". iFrame.
  - apply sep_intro; [done|split; [done|by apply rlist_spec]..].
  - intros q h' (h1' & h23 & -> & Hd1 & [-> _] & h2' & hc & -> & Hd2 & [-> _] & H). exists hc.
    split; [by apply splits_3|]. by apply rlist_spec.
Qed.
Print Assumptions C22_concat.

Theorem C22_node : ∀ (cfg : config) (al : Allocator obj) h p u, config_ok cfg → wf_union cfg u → u ≠ [] →
  stores_union h p u →
  runs_to (osl_relation_list_node_p p) h (λ q h', ∃ hn, splits h' [h; hn] ∧ stores_list hn q [u]).
Proof.
  intros cfg al h p u Hc Hu Hne H.
  apply (runs_intro (ex h (runion p u)) (λ q, ex h (runion p u) ∗ rlist q [u]))%I.
  - iIntros "U". iApply (wp_list_node h p u u); [by apply clone_ok|]. iFrame "U". iIntros (q) "U C". destruct u; [done|]. iFrame.
  - split; [done|]. by apply runion_spec.
  - intros q h' (h1 & h2 & -> & Hd & [-> H1] & H2). exists h2. split; [by apply splits_2|]. by apply rlist_spec.
Qed.
Print Assumptions C22_node.

Theorem C22_push : ∀ hl hn p n l u, stores_list hl p l → stores_list hn n [u] → hl ##ₘ hn →
  runs_to (osl_relation_list_push_p p n) (hl ∪ hn) (λ q h', q = n ∧ stores_list h' q (u :: l)).
Proof.
  intros hl hn p n l u H1 H2 Hd.
  apply (runs_intro (rlist p l ∗ rlist n [u]) (λ q, <affine> ⌜q = n⌝ ∗ rlist q (u :: l)))%I.
  - iIntros "[L N]". iApply (wp_list_push p l n u). iFrame "L N". iIntros "L". by iFrame.
  - apply sep_intro; [done|by apply rlist_spec..].
  - intros q h' (? & h'' & -> & _ & [-> ->] & H). rewrite left_id_L. split; [done|]. by apply rlist_spec.
Qed.
Print Assumptions C22_push.

(** The popped node is a list of its own; the rest is the new list. *)
Theorem C22_pop : ∀ h p u l, stores_list h p (u :: l) →
  runs_to (osl_relation_list_pop_p p) h (λ '(t, q) h', t = p ∧
    ∃ ht hq, splits h' [ht; hq] ∧ stores_list ht t [u] ∧ stores_list hq q l).
Proof.
  intros h p u l H.
  apply (runs_intro (rlist p (u :: l)) (λ tq, <affine> ⌜tq.1 = p⌝ ∗ rlist tq.1 [u] ∗ rlist tq.2 l))%I.
  - iIntros "L". iApply (wp_list_pop p (u :: l)). iFrame "L". iIntros (q) "T L".
    cbn [firstn tail]. rewrite firstn_O. iFrame. done.
  - by apply rlist_spec.
  - intros [t q] h' (x & h'' & -> & _ & [Hx Et] & ht & hq & -> & Hd & H1 & H2). cbn [fst snd] in *. split; [done|].
    exists ht, hq. change (x = ∅) in Hx. subst x. rewrite left_id_L. split; [by apply splits_2|]. split; by apply rlist_spec.
Qed.
Print Assumptions C22_pop.

Theorem C22_pop_empty : ∀ h, osl_relation_list_pop_p NULL h = Ok ((NULL, NULL), h).
Proof. done. Qed.
Print Assumptions C22_pop_empty.

Theorem C22_dup : ∀ (cfg : config) (al : Allocator obj) h p u l, config_ok cfg → wf_union cfg u →
  stores_list h p (u :: l) →
  runs_to (osl_relation_list_dup_p p) h (λ q h', q = p ∧ stores_list h' q (u :: u :: l)).
Proof.
  intros cfg al h p u l Hc Hu H.
  apply (runs_intro (rlist p (u :: l)) (λ q, <affine> ⌜q = p⌝ ∗ rlist q (u :: u :: l)))%I.
  - iIntros "L". iApply (wp_list_dup p u l u); [by apply clone_ok|]. iFrame "L". iIntros "L". by iFrame.
  - by apply rlist_spec.
  - intros q h' (? & h'' & -> & _ & [-> ->] & H'). rewrite left_id_L. split; [done|]. by apply rlist_spec.
Qed.
Print Assumptions C22_dup.

Theorem C22_drop : ∀ h p l, stores_list h p l →
  runs_to (osl_relation_list_drop_p p) h (λ q h', stores_list h' q (tl l)).
Proof.
  intros h p l H. apply (runs_intro (rlist p l) (λ q, rlist q (tl l))).
  - iIntros "L". iApply (wp_list_drop p l). iFrame "L". by iIntros (q) "$".
  - by apply rlist_spec.
  - intros q h' H'. by apply rlist_spec.
Qed.
Print Assumptions C22_drop.

Theorem C22_destroy : ∀ h p l, stores_list h p l →
  runs_to (osl_relation_list_destroy_p p) h (λ q h', q = NULL ∧ h' = ∅).
Proof.
  intros h p l H. apply (runs_intro (rlist p l) (λ q, <affine> ⌜q = NULL⌝))%I.
  - iIntros "L". iApply (wp_list_destroy p l). by iFrame "L".
  - by apply rlist_spec.
  - by intros q h' [-> ?].
Qed.
Print Assumptions C22_destroy.

Lemma filter_restricted type l : restricted (of_type type) l (List.filter (keeps type) l).
Proof.
  induction l as [|u l IH]; cbn [List.filter]; [constructor|].
  assert (keeps type u = true ↔ of_type type u) as Hk.
  { unfold keeps, of_type, access_type, osl_relation_is_access. destruct u as [|r u].
    - split; [done|]. by intros (? & ? & ? & _).
    - split.
      + intros H. exists r, u. split; [done|]. lia.
      + intros (? & ? & [= <- <-] & H). lia. }
  destruct (keeps type u) eqn:E; constructor; try done.
  - by apply Hk.
  - intros H. apply Hk in H. congruence.
Qed.
(** The result is a new list: the elements of the given type, copied, in order;
    nothing else is left allocated and the source is unchanged. *)
Theorem C22_filter : ∀ (cfg : config) (al : Allocator obj) h p l type, config_ok cfg → Forall (wf_union cfg) l →
  stores_list h p l →
  runs_to (osl_relation_list_filter_p p type) h
    (λ q h', ∃ hc l', splits h' [h; hc] ∧ restricted (of_type type) l l' ∧ stores_list hc q l').
Proof.
  intros cfg al h p l type Hc Hl H.
  apply (runs_intro (ex h (rlist p l)) (λ q, ex h (rlist p l) ∗ rlist q (List.filter (keeps type) l)))%I.
  - iIntros "U". iApply (wp_list_filter h p l l type); [by apply (clone_list_wf cfg)|]. iFrame "U". iIntros (q) "U C". iFrame.
  - split; [done|]. by apply rlist_spec.
  - intros q h' (h1 & h2 & -> & Hd & [-> H1] & H2). exists h2, (List.filter (keeps type) l).
    split; [by apply splits_2|]. split; [apply filter_restricted|]. by apply rlist_spec.
Qed.
Print Assumptions C22_filter.

Theorem C22_count : ∀ h p l, stores_list h p l →
  runs_to (osl_relation_list_count_p p) h (λ n h', n = present l ∧ h' = h).
Proof.
  intros h p l H.
  apply (runs_intro (ex h (rlist p l)) (λ n, <affine> ⌜n = present l⌝ ∗ ex h (rlist p l)))%I.
  - iIntros "U". iApply (wp_list_count h p l). iFrame "U". iIntros "U". iFrame "U". iPureIntro.
    unfold present. clear. induction l as [|[|r u] l IH]; cbn [count_present List.filter List.length]; lia.
  - split; [done|]. by apply rlist_spec.
  - intros q h' (? & h'' & -> & _ & [-> ->] & [-> _]). by rewrite left_id_L.
Qed.
Print Assumptions C22_count.

(** osl_relation_list_set_type gives the type to every element of single-part
    unions ... *)
Theorem C22_set_type : ∀ h p l type, stores_list h p l → Forall (λ u, (List.length u ≤ 1)%nat) l →
  runs_to (osl_relation_list_set_type_p p type) h
    (λ _ h', stores_list h' p (map (map (λ r, with_type r type)) l)).
Proof.
  intros h p l type H Hl.
  apply (runs_intro (rlist p l) (λ _, rlist p (map (map (λ r, with_type r type)) l))).
  - iIntros "L". iApply (wp_list_set_type p l type). iFrame "L". iIntros "L".
    replace (map (map (λ r, with_type r type)) l) with (map (set_first_type type) l); [done|].
    apply map_ext_Forall. revert Hl. apply List.Forall_impl. intros [|r [|r' u]] Hu; [done|done|cbn in Hu; lia].
  - by apply rlist_spec.
  - intros q h' H'. by apply rlist_spec.
Qed.
Print Assumptions C22_set_type.
(** ... but the other parts of a union keep theirs, whatever it was. *)
Theorem C22_set_type_refuted : ∀ h p r s l type, stores_list h p ((r :: s :: []) :: l) →
  runs_to (osl_relation_list_set_type_p p type) h
    (λ _ h', ∃ l', stores_list h' p ((with_type r type :: s :: []) :: l')).
Proof.
  intros h p r s l type H.
  apply (runs_intro (rlist p ((r :: s :: []) :: l)) (λ _, rlist p (map (set_first_type type) ((r :: s :: []) :: l)))).
  - iIntros "L". iApply (wp_list_set_type p _ type). iFrame "L". by iIntros "L".
  - by apply rlist_spec.
  - intros q h' H'. exists (map (set_first_type type) l). by apply rlist_spec.
Qed.
Print Assumptions C22_set_type_refuted.

(** Histories: any sequence of calls on a list, where a call that makes a new list
    is followed by the release of the old one. *)
Inductive list_call := CallDup | CallDrop | CallFilter (type : Z) | CallPopPush | CallDouble.
Definition call {cfg : config} {al : Allocator obj} (c : list_call) (p : ptr) : oprog ptr :=
  match c with
  | CallDup => osl_relation_list_dup_p p
  | CallDrop => osl_relation_list_drop_p p
  | CallFilter type => q <== osl_relation_list_filter_p p type ;; osl_relation_list_free_p p ;;== ret q
  | CallPopPush => '(t, q) <== osl_relation_list_pop_p p ;; osl_relation_list_push_p q t
  | CallDouble => q <== osl_relation_list_clone_p p ;; osl_relation_list_add_p p q
  end.
Fixpoint calls {cfg : config} {al : Allocator obj} (cs : list list_call) (p : ptr) : oprog ptr :=
  match cs with [] => ret p | c :: cs' => q <== call c p ;; calls cs' q end.
(** What one call does to the abstract list. *)
Definition abstract_call (c : list_call) (l l' : list (list relation)) : Prop :=
  match c with
  | CallDup => l' = firstn 1 l ++ l
  | CallDrop => l' = tl l
  | CallFilter type => restricted (of_type type) l l'
  | CallPopPush => l' = l
  | CallDouble => l' = l ++ l
  end.
Inductive abstract_calls : list list_call → list (list relation) → list (list relation) → Prop :=
| calls_nil l : abstract_calls [] l l
| calls_cons c cs l l1 l2 : abstract_call c l l1 → abstract_calls cs l1 l2 → abstract_calls (c :: cs) l l2.

Lemma runs_bind {A B} (c : oprog A) (f : A → oprog B) h Q R :
  runs_to c h Q → (∀ a h', Q a h' → runs_to (f a) h' R) → runs_to (pbind c f) h R.
Proof.
  intros Hc Hf hf Hd. destruct (Hc hf Hd) as (a & h' & E & Hd' & HQ). destruct (Hf a h' HQ hf Hd') as (b & h'' & E' & Hd'' & HR).
  exists b, h''. unfold pbind. rewrite E. done.
Qed.
Lemma runs_ret {A} (a : A) h (Q : A → heap obj → Prop) : Q a h → runs_to (ret a) h Q.
Proof. intros HQ hf Hd. by exists a, h. Qed.
Lemma runs_weaken {A} (c : oprog A) h (Q R : A → heap obj → Prop) :
  runs_to c h Q → (∀ a h', Q a h' → R a h') → runs_to c h R.
Proof. intros Hc Hw hf Hd. destruct (Hc hf Hd) as (a & h' & E & Hd' & HQ). exists a, h'. eauto. Qed.
(** A program that runs on a part of the memory runs on the whole of it. *)
Lemma runs_frame {A} (c : oprog A) (h1 h2 : heap obj) (Q R : A → heap obj → Prop) : h1 ##ₘ h2 → runs_to c h1 Q →
  (∀ a h', Q a h' → h' ##ₘ h2 → R a (h' ∪ h2)) → runs_to c (h1 ∪ h2) R.
Proof.
  intros Hd Hc HR hf Hf. destruct (Hc (h2 ∪ hf)) as (a & h' & E & Hd' & HQ); [solve_map_disjoint|].
  exists a, (h' ∪ h2). rewrite -!assoc_L. split; [done|]. split; [solve_map_disjoint|]. apply HR; [done|solve_map_disjoint].
Qed.
Lemma restricted_Forall {A} (P R : A → Prop) l l' : restricted P l l' → Forall R l → Forall R l'.
Proof. induction 1; intros Hl; try done; inversion Hl; subst; auto. Qed.

Theorem C22_histories : ∀ (cfg : config) (al : Allocator obj) cs h p l, config_ok cfg → Forall (wf_union cfg) l →
  stores_list h p l →
  runs_to (calls cs p) h (λ q h', ∃ l', abstract_calls cs l l' ∧ stores_list h' q l').
Proof.
  intros cfg al cs. induction cs as [|c cs IH]; intros h p l Hc Hl H; cbn [calls].
  { apply runs_ret. exists l. split; [constructor|done]. }
  eapply (runs_bind _ _ _ (λ q h', ∃ l', abstract_call c l l' ∧ Forall (wf_union cfg) l' ∧ stores_list h' q l')).
  - destruct c; cbn [call abstract_call].
    + destruct l as [|u l].
      * destruct H as [-> ->]. apply (runs_intro emp (λ q, <affine> ⌜q = NULL⌝))%I.
        -- iIntros "_". by iApply wp_list_dup_null.
        -- done.
        -- intros q h' [-> ->]. by exists [].
      * eapply runs_weaken; [apply (C22_dup cfg al h p u l); [done|by inversion Hl|done]|].
        intros q h' [-> Hs]. exists (u :: u :: l). inversion Hl; subst. split; [done|]. split; [by constructor|done].
    + eapply runs_weaken; [by apply C22_drop|]. intros q h' Hs. exists (tl l). split; [done|]. split; [|done].
      destruct l; [done|]. by inversion Hl.
    + eapply runs_bind; [by apply (C22_filter cfg)|]. intros q h' (hc & l' & (-> & Hd)%splits_2 & Hr & Hs). cbn beta.
      eapply (runs_bind _ _ _ (λ _ h', h' = hc)).
      * eapply runs_frame; [done|by apply (C40_list_free h p l)|]. intros [] h' -> _. by rewrite left_id_L.
      * intros _ h' ->. apply runs_ret. exists l'. split; [done|]. split; [by eapply restricted_Forall|done].
    + destruct l as [|u l].
      * destruct H as [-> ->]. intros hf Hf. exists NULL, ∅. rewrite left_id_L. split; [done|]. split; [done|]. by exists [].
      * eapply runs_bind; [by apply C22_pop|]. intros [t q] h' (-> & ht & hq & (-> & Hd)%splits_2 & Ht & Hq). cbn beta iota.
        rewrite map_union_comm //. eapply runs_weaken; [by apply (C22_push hq ht q p l u)|].
        intros a h' [-> Hs]. by exists (u :: l).
    + eapply runs_bind; [by apply (C10_list_clone_independent cfg)|]. intros q h' (hc & (-> & Hd)%splits_2 & Hs).
      eapply runs_weaken; [by apply C22_add|]. intros a h' Hs'. exists (l ++ l). split; [done|]. split; [by apply Forall_app|done].
  - intros q h' (l' & Ha & Hw & Hs). eapply runs_weaken; [by apply (IH h' q l')|].
    intros a h'' (l2 & Hcs & Hs2). exists l2. split; [by econstructor|done].
Qed.
Print Assumptions C22_histories.

(** ** A memory that meets the hypotheses *)

(** [{ i >= 0 }] and [{ i = 1 }]: two parts of a domain; a read access without rows. *)
Definition exr1 : relation := mkrel TYPE_DOMAIN 64 1 3 1 0 0 0 [[1; 1; 0]].
Definition exr2 : relation := mkrel TYPE_DOMAIN 64 1 3 1 0 0 0 [[0; 1; -1]].
Definition exr3 : relation := mkrel TYPE_READ 64 0 3 1 0 0 0 [].
Definition exhu : heap obj :=
  {[10 := CRel (header exr1) 11 20]} ∪ ({[11 := CMat [[1; 1; 0]]]} ∪ ({[20 := CRel (header exr2) 21 NULL]} ∪ {[21 := CMat [[0; 1; -1]]]})).
(** The list of three elements: the domain, the access, and no relation. *)
Definition exhl : heap obj :=
  {[1 := CList 10 2]} ∪ (exhu ∪ ({[2 := CList 30 3]} ∪ ({[30 := CRel (header exr3) NULL NULL]} ∪ {[3 := CList NULL NULL]}))).
Ltac cells := apply splits_3; split_and!;
  [ try done; rewrite ?right_id_L ?left_id_L; done
  | first [apply map_disjoint_empty_l | apply map_disjoint_singleton_l; vm_compute; reflexivity
          | apply map_disjoint_spec; intros ????? ]
  | first [apply map_disjoint_empty_l | apply map_disjoint_empty_r | apply map_disjoint_singleton_l; vm_compute; reflexivity ] ].
Example exhu_ok : stores_union exhu 10 [exr1; exr2].
Proof.
  exists 11, 20, {[11 := CMat [[1; 1; 0]]]}, ({[20 := CRel (header exr2) 21 NULL]} ∪ {[21 := CMat [[0; 1; -1]]]}).
  split; [done|]. split; [cells|].
  split; [done|]. exists 21, NULL, {[21 := CMat [[0; 1; -1]]]}, ∅.
  split; [done|]. split; [cells|]. done.
Qed.
Example exhl_ok : stores_list exhl 1 [[exr1; exr2]; [exr3]; []].
Proof.
  exists 10, 2, exhu, ({[2 := CList 30 3]} ∪ ({[30 := CRel (header exr3) NULL NULL]} ∪ {[3 := CList NULL NULL]})).
  split; [done|]. split.
  { apply splits_3. split_and!; [done|by apply map_disjoint_singleton_l|].
    unfold exhu. rewrite !map_disjoint_union_l. split_and!; by apply map_disjoint_singleton_l. }
  split; [apply exhu_ok|]. exists 30, 3, {[30 := CRel (header exr3) NULL NULL]}, {[3 := CList NULL NULL]}.
  split; [done|]. split; [cells|]. split.
  - exists NULL, NULL, ∅, ∅. split; [done|]. split; [cells|]. done.
  - exists NULL, NULL, ∅, ∅. split; [done|]. split; [cells|]. done.
Qed.
Example exr_wf : Forall (wf_union lp64_debug) [[exr1; exr2]; [exr3]; []].
Proof.
  unfold wf_union. repeat apply Forall_cons_2; try apply Forall_nil_2;
    unfold wf_rel; cbn [exr1 exr2 exr3 rtype rprec nrows ncols nout nin nloc npar rm]; LoopLemmas.wf_lit.
Qed.
(** Filtering the accesses allocates two objects (one list node, one relation
    node without matrix) and finds one element; counting gives two. *)
Example exhl_filter :
  match @osl_relation_list_filter_p lp64_debug (bump_allocator obj) 1 TYPE_ACCESS exhl with
  | Ok (q, h) => size h = (size exhl + 2)%nat ∧
      match osl_relation_list_count_p q h with Ok (n, _) => n = 1 | _ => False end
  | _ => False
  end ∧ match osl_relation_list_count_p 1 exhl with Ok (n, _) => n = 2 | _ => False end.
Proof. vm_compute. auto. Qed.
(** The part at address 20 is in the middle case of C40_remove_part. *)
Example exhu_remove : ∃ hl hp, splits exhu [hl; hp; ∅] ∧ stores_parts hl 10 [exr1] 20 ∧ stores_parts hp 20 [exr2] NULL ∧
  stores_union ∅ NULL [].
Proof.
  exists ({[10 := CRel (header exr1) 11 20]} ∪ {[11 := CMat [[1; 1; 0]]]}), ({[20 := CRel (header exr2) 21 NULL]} ∪ {[21 := CMat [[0; 1; -1]]]}).
  split; [|split; [|split; [|done]]].
  - apply splits_3. rewrite right_id_L. split_and!; [by rewrite -assoc_L| |apply map_disjoint_empty_r].
    rewrite map_disjoint_union_l. split; by apply map_disjoint_singleton_l.
  - exists 11, 20, {[11 := CMat [[1; 1; 0]]]}, ∅. split; [done|]. split; [cells|]. done.
  - exists 21, NULL, {[21 := CMat [[0; 1; -1]]]}, ∅. split; [done|]. split; [cells|]. done.
Qed.
