(** * PropHeap5: equality of relations, lists, extensions, statements and scops in memory (C09, C31) *)
From stdpp Require Import gmap.
From iris.proofmode Require Import tactics.
From Coq Require Import ZifyBool ZifyNat.
From Verif Require Import Base IntModel VectorModel RelationModel RelSpec RelationProofs RelationProofs2 HeapModel HeapObjects HeapEqual HeapSpec EqualSpec HeapLogic
  HeapProofs HeapProofs2 HeapProofs3 HeapProofs4 HeapProofs5 HeapProofs6 HeapProofs7 PropHeap PropHeap2 PropHeap3 PropHeap4.
Local Open Scope string_scope.
Local Open Scope list_scope.
Local Open Scope Z_scope.

(** [c] says whether [same] holds, on the memory [h], and does not change it. *)
Definition decides (c : oprog bool) (h : heap obj) (same : Prop) : Prop :=
  runs_to c h (λ b h', h' = h ∧ (b = true ↔ same)).
Lemma decides_intro (c : oprog bool) (h1 h2 : heap obj) (P1 P2 : oprop) (same : Prop) : h1 ##ₘ h2 → P1 h1 → P2 h2 →
  (∀ Q : bool → oprop, (ex h1 P1 ∗ ex h2 P2 ∗ (∀ b, <affine> ⌜b = true ↔ same⌝ -∗ ex h1 P1 -∗ ex h2 P2 -∗ Q b))%I ⊢ wp c Q) →
  decides c (h1 ∪ h2) same.
Proof.
  intros Hd H1 H2 Hw. apply (runs_intro (ex h1 P1 ∗ ex h2 P2)%I (λ b, <affine> ⌜b = true ↔ same⌝ ∗ ex h1 P1 ∗ ex h2 P2)%I).
  - iIntros "[H1 H2]". iApply Hw. iFrame "H1 H2". iIntros (b) "%Hb H1 H2". by iFrame.
  - by apply sep_intro.
  - intros b h' (h0 & h'' & -> & _ & [-> Hb] & (ha & hb & -> & _ & [-> _] & [-> _])). rewrite left_id_L. split; [done|exact Hb].
Qed.

(** ** Relations and relation lists *)
Theorem C09_equal_memory : ∀ (cfg : config) h1 h2 p1 p2 u1 u2,
  wf_union cfg u1 → wf_union cfg u2 → stores_union h1 p1 u1 → stores_union h2 p2 u2 → h1 ##ₘ h2 →
  decides (osl_relation_equal_p p1 p2) (h1 ∪ h2) (u1 = u2).
Proof.
  intros cfg h1 h2 p1 p2 u1 u2 W1 W2 H1%runion_spec H2%runion_spec Hd.
  apply (decides_intro _ _ _ _ _ _ Hd H1 H2). intros Q. by apply (wp_relation_equal (cfg:=cfg)).
Qed.
Print Assumptions C09_equal_memory.
(** A relation is equal to itself, whatever it contains. *)
Theorem C09_equal_self : ∀ (cfg : config) h p u, stores_union h p u → runs_to (osl_relation_equal_p p p) h (λ b h', h' = h ∧ b = true).
Proof.
  intros cfg h p u H%runion_spec. apply (runs_intro (ex h (runion p u) ∗ emp) (λ b, <affine> ⌜b = true⌝ ∗ ex h (runion p u)))%I.
  - apply (wp_loop_on (List.length u)); [apply ex_runion_size|]. clear H. intros k Hk. iIntros "[H _]". iStopProof.
    revert k p h Hk. induction u as [|r u IH]; intros [|k] p h Hk; try (cbn in Hk; lia); cbn [relation_equal_loop].
    + iIntros "L". iDestruct (ex_runion_isnull with "L") as "[%E L]". rewrite E. cbn [andb orb negb]. iApply wp_ret. by iFrame.
    + iIntros "L". iDestruct (ex_runion_isnull with "L") as "[%E L]". rewrite E. cbn [andb orb negb].
      unfold osl_relation_part_equal_p. rewrite Z.eqb_refl. iApply wp_bind. iApply wp_ret.
      iDestruct (ex_runion_cons with "L") as (m n h2) "(H & M & L & %C)".
      iApply wp_bind. iApply wp_get_rel. iFrame "H". iIntros "H". iApply wp_bind. iApply wp_get_rel. iFrame "H". iIntros "H".
      iApply wp_wand. iSplitL "L"; [iApply (IH k n h2 with "L"); cbn in Hk; lia|].
      iIntros (b) "[% L]". iSplit; [done|]. iApply C. iFrame.
  - exists h, ∅. rewrite right_id_L. split_and!; [done|apply map_disjoint_empty_r|done|done].
  - intros b h' (h0 & h'' & -> & _ & [-> Hb] & [-> _]). rewrite left_id_L. split; [done|exact Hb].
Qed.
Print Assumptions C09_equal_self.
Theorem C09_list_equal : ∀ (cfg : config) h1 h2 p1 p2 l1 l2,
  Forall (wf_union cfg) l1 → Forall (wf_union cfg) l2 → stores_list h1 p1 l1 → stores_list h2 p2 l2 → h1 ##ₘ h2 →
  decides (osl_relation_list_equal_p p1 p2) (h1 ∪ h2) (l1 = l2).
Proof.
  intros cfg h1 h2 p1 p2 u1 u2 W1 W2 H1%rlist_spec H2%rlist_spec Hd.
  apply (decides_intro _ _ _ _ _ _ Hd H1 H2). intros Q. by apply (wp_list_equal (cfg:=cfg)).
Qed.
Print Assumptions C09_list_equal.

(** ** Extensions: the order does not matter *)
Theorem C31_extension_equal : ∀ h1 h2 p1 p2 l1 l2,
  unique_gens l1 → unique_gens l2 → stores_gens h1 p1 l1 → stores_gens h2 p2 l2 → h1 ##ₘ h2 →
  decides (osl_generic_equal_p p1 p2) (h1 ∪ h2) (l1 ≡ₚ l2).
Proof.
  intros h1 h2 p1 p2 l1 l2 W1 W2 H1%glist_spec H2%glist_spec Hd.
  apply (decides_intro _ _ _ _ _ _ Hd H1 H2). intros Q. iIntros "(L1 & L2 & K)".
  iApply (wp_generic_equal l1 l2 h1 h2); [by apply unique_have_uri|by apply unique_have_uri|]. iFrame "L1 L2". iIntros "L1 L2".
  iApply ("K" with "[] L1 L2"). iPureIntro. by apply gens_eqb_iff.
Qed.
Print Assumptions C31_extension_equal.

(** ** Statements *)
Theorem C31_statement_equal : ∀ (cfg : config) h1 h2 p1 p2 l1 l2,
  Forall (wf_stmt cfg) l1 → Forall (wf_stmt cfg) l2 → (l1 = [] ↔ l2 = []) →
  stores_stmts h1 p1 l1 → stores_stmts h2 p2 l2 → h1 ##ₘ h2 →
  decides (osl_statement_equal_p p1 p2) (h1 ∪ h2) (Forall2 same_stmt l1 l2).
Proof.
  intros cfg h1 h2 p1 p2 u1 u2 W1 W2 Hl H1%slist_spec H2%slist_spec Hd.
  apply (decides_intro _ _ _ _ _ _ Hd H1 H2). intros Q. by apply (wp_statement_equal (cfg:=cfg)).
Qed.
Print Assumptions C31_statement_equal.
(** Without the condition on NULL: the function reads the fields of NULL. *)
Theorem C31_statement_equal_null_refuted : ∀ (cfg : config) h p, p ≠ NULL → h !! NULL = None → osl_statement_equal_p NULL p h = UB.
Proof.
  intros cfg h p Hp H0. unfold osl_statement_equal_p, loop. cbn [statement_equal_rec].
  destruct (Z.eqb_spec NULL p); [done|]. unfold pbind, get_stmt, load, pbind. by rewrite H0.
Qed.
Print Assumptions C31_statement_equal_null_refuted.

(** ** Scops: the language must be there, and only the first interface of the registries is compared *)
Theorem C31_scop_equal : ∀ (cfg : config) h1 h2 p1 p2 l1 l2,
  Forall (wf_scop cfg) l1 → Forall (wf_scop cfg) l2 → comparable_all l1 l2 →
  stores_scops h1 p1 l1 → stores_scops h2 p2 l2 → h1 ##ₘ h2 →
  decides (osl_scop_equal_p p1 p2) (h1 ∪ h2) (Forall2 (λ a b, same_scop a b ∧ same_first_iface a b) l1 l2).
Proof.
  intros cfg h1 h2 p1 p2 u1 u2 W1 W2 Hl H1%sclist_spec H2%sclist_spec Hd.
  apply (decides_intro _ _ _ _ _ _ Hd H1 H2). intros Q. by apply (wp_scop_equal (cfg:=cfg)).
Qed.
Print Assumptions C31_scop_equal.
(** A statement list or a scop list is equal to itself. *)
Theorem C31_statement_equal_self : ∀ (cfg : config) h p, osl_statement_equal_p p p h = Ok (true, h).
Proof. intros cfg h p. unfold osl_statement_equal_p, loop. cbn [statement_equal_rec]. by rewrite Z.eqb_refl. Qed.
Print Assumptions C31_statement_equal_self.
Theorem C31_scop_equal_self : ∀ (cfg : config) h p, osl_scop_equal_p p p h = Ok (true, h).
Proof.
  intros cfg h p. unfold osl_scop_equal_p, loop. cbn [scop_equal_loop]. rewrite Z.eqb_refl. by destruct (isnull p).
Qed.
Print Assumptions C31_scop_equal_self.

(** ** Copies are equal to their source *)
Lemma same_stmt_refl s : same_stmt s s.
Proof. by constructor. Qed.
Lemma same_stmts_refl l : Forall2 same_stmt l l.
Proof. induction l; constructor; [apply same_stmt_refl|done]. Qed.
Lemma same_scop_refl s : same_scop s s.
Proof. constructor; try done. apply same_stmts_refl. Qed.
Theorem C31_statement_clone_equal : ∀ (cfg : config) (al : Allocator obj) h p l,
  config_ok cfg → Forall (wf_stmt cfg) l → stores_stmts h p l →
  runs_to (q <== osl_statement_clone_p p ;; osl_statement_equal_p p q) h (λ b _, b = true).
Proof.
  intros cfg al h p l Hc Hl H. eapply runs_bind; [by apply (C31_statement_clone cfg al h p l)|].
  intros q h' (hc & (-> & Hd)%splits_2 & Hs). eapply runs_weaken; [by apply (C31_statement_equal cfg h hc p q l l)|].
  intros b h' [_ Hb]. apply Hb, same_stmts_refl.
Qed.
Print Assumptions C31_statement_clone_equal.
Theorem C31_scop_clone_equal : ∀ (cfg : config) (al : Allocator obj) h p l,
  config_ok cfg → Forall (wf_scop cfg) l → Forall (λ s, sc_language s ≠ None) l → stores_scops h p l →
  runs_to (q <== osl_scop_clone_p p ;; osl_scop_equal_p p q) h (λ b _, b = true).
Proof.
  intros cfg al h p l Hc Hl Hn H. eapply runs_bind; [by apply (C31_scop_clone cfg al h p l)|].
  intros q h' (hc & (-> & Hd)%splits_2 & Hs). eapply runs_weaken; [apply (C31_scop_equal cfg h hc p q l l); try done|].
  - clear H Hs. induction Hn as [|s l Hs Hn IH]; [done|]. apply Forall_cons_1 in Hl as [_ Hl]. split; [done|by apply IH].
  - intros b h' [_ Hb]. apply Hb. clear. induction l; constructor; [|done]. split; [apply same_scop_refl|done].
Qed.
Print Assumptions C31_scop_clone_equal.
(** ** Equality is an equivalence: what the two functions decide is one *)
Theorem C31_equivalence : Equivalence same_stmt ∧ Equivalence same_scop ∧
  Equivalence (Forall2 same_stmt) ∧ Equivalence (Forall2 (λ a b, same_scop a b ∧ same_first_iface a b)).
Proof.
  assert (E1 : Equivalence same_stmt).
  { split; [exact same_stmt_refl|..].
    - intros a b []. by constructor.
    - intros a b c [] []. constructor; etransitivity; eassumption. }
  assert (E2 : Equivalence (Forall2 same_stmt)) by apply _.
  assert (E3 : Equivalence same_scop).
  { split; [exact same_scop_refl|..].
    - intros a b []. constructor; by symmetry.
    - intros a b c [] []. constructor; etransitivity; eassumption. }
  assert (E4 : Equivalence (λ a b, same_scop a b ∧ same_first_iface a b)).
  { split.
    - intros a. done.
    - intros a b []. split; by symmetry.
    - intros a b c [? X] [? Y]. split; [by etransitivity|]. unfold same_first_iface in *. congruence. }
  split_and!; [done|done|done|apply _].
Qed.
Print Assumptions C31_equivalence.

(** ** What osl_scop_equal does not see *)
(** Registries with the same first interface are taken to be equal. *)
Definition scop_with_registry (l : list iface) : scop := Scop 1 (Some (lit "C")) [] [] [] l [].
Theorem C31_scop_registry_refuted : ∀ (cfg : config), ∃ h1 h2 p1 p2 s1 s2,
  stores_scops h1 p1 [s1] ∧ stores_scops h2 p2 [s2] ∧ h1 ##ₘ h2 ∧
  List.length (sc_registry s1) = 1%nat ∧ List.length (sc_registry s2) = 2%nat ∧
  runs_to (osl_scop_equal_p p1 p2) (h1 ∪ h2) (λ b _, b = true).
Proof.
  intros cfg. set (a := (Some (lit "strings"), 1) : iface). set (b := (Some (lit "body"), 2) : iface).
  assert (W : ∀ l, unique_ifaces l → wf_scop cfg (scop_with_registry l)).
  { intros l Hl. unfold wf_scop, wf_union, unique_gens. cbn. split_and!; try constructor; apply Hl. }
  assert (Wa : unique_ifaces [a]). { split; [by repeat constructor|]. cbn. constructor; [by intros []|constructor]. }
  assert (Wb : unique_ifaces [a; b]).
  { split; [by repeat constructor|]. cbn. constructor; [intros [?|[]]; done|]. constructor; [by intros []|constructor]. }
  destruct (storable_sclist cfg [scop_with_registry [a; b]] ltac:(by constructor; [apply W|]) ∅) as (p2 & h2 & D2 & H2).
  destruct (storable_sclist cfg [scop_with_registry [a]] ltac:(by constructor; [apply W|]) h2) as (p1 & h1 & D1 & H1).
  apply sclist_spec in H1, H2.
  exists h1, h2, p1, p2, (scop_with_registry [a]), (scop_with_registry [a; b]). split_and!; try done.
  eapply runs_weaken; [apply (C31_scop_equal cfg h1 h2 p1 p2 [scop_with_registry [a]] [scop_with_registry [a; b]]); try done|].
  - by constructor; [apply W|].
  - by constructor; [apply W|].
  - intros x h' [_ Hx]. apply Hx. constructor; [|constructor]. split; [|done]. constructor; cbn; try done; constructor.
Qed.
Print Assumptions C31_scop_registry_refuted.
(** Two scops without language: strcmp on NULL. *)
Theorem C31_scop_language_refuted : ∀ (cfg : config), ∃ h p1 p2, p1 ≠ NULL ∧ p2 ≠ NULL ∧ osl_scop_equal_p p1 p2 h = UB ∧
  stores_scops {[p1 := CScop 1 None NULL NULL NULL NULL NULL NULL]} p1 [Scop 1 None [] [] [] [] []] ∧
  stores_scops {[p2 := CScop 1 None NULL NULL NULL NULL NULL NULL]} p2 [Scop 1 None [] [] [] [] []] ∧
  h = {[p1 := CScop 1 None NULL NULL NULL NULL NULL NULL]} ∪ {[p2 := CScop 1 None NULL NULL NULL NULL NULL NULL]}.
Proof.
  intros cfg. assert (S : ∀ p, p ≠ NULL → stores_scops {[p := CScop 1 None NULL NULL NULL NULL NULL NULL]} p [Scop 1 None [] [] [] [] []]).
  { intros p Hp. cbn. exists NULL, NULL, NULL, NULL, NULL, NULL, ∅, ∅, ∅, ∅, ∅, ∅. split; [done|]. split; [|done].
    exists ∅. split; [by rewrite right_id_L|]. split; [apply map_disjoint_empty_r|].
    do 6 (exists ∅; split; [by rewrite left_id_L|]; split; [apply map_disjoint_empty_r|]). done. }
  eexists _, 1, 2. split; [done|]. split; [done|]. split; [|split; [by apply S|split; [by apply S|reflexivity]]]. by vm_compute.
Qed.
Print Assumptions C31_scop_language_refuted.

(** ** Without unique URIs osl_generic_equal is neither symmetric nor true of equal lists *)
Definition dup_list (u1 u2 u3 : Z) : list gen :=
  [Gen (Some u1) (Some (Some (lit "a"), 1)); Gen (Some u2) (Some (Some (lit "a"), 1)); Gen (Some u3) (Some (Some (lit "b"), 1))].
Theorem C31_extension_duplicates_refuted :
  (∃ h1 h2 p1 p2 l, stores_gens h1 p1 l ∧ stores_gens h2 p2 l ∧ h1 ##ₘ h2 ∧
     runs_to (osl_generic_equal_p p1 p2) (h1 ∪ h2) (λ b _, b = false)) ∧
  (∃ h1 h2 p1 p2 l1 l2, stores_gens h1 p1 l1 ∧ stores_gens h2 p2 l2 ∧ h1 ##ₘ h2 ∧
     runs_to (osl_generic_equal_p p1 p2) (h1 ∪ h2) (λ b _, b = true) ∧
     runs_to (osl_generic_equal_p p2 p1) (h1 ∪ h2) (λ b _, b = false)).
Proof.
  assert (X : ∀ h1 h2 p1 p2 l1 l2, gens_have_uri l1 → gens_have_uri l2 → stores_gens h1 p1 l1 → stores_gens h2 p2 l2 → h1 ##ₘ h2 →
    runs_to (osl_generic_equal_p p1 p2) (h1 ∪ h2) (λ b _, b = gens_eqb l1 l2)).
  { intros h1 h2 p1 p2 l1 l2 U1 U2 H1%glist_spec H2%glist_spec Hd.
    apply (runs_intro (ex h1 (glist p1 l1) ∗ ex h2 (glist p2 l2))%I (λ b, ⌜b = gens_eqb l1 l2⌝)%I).
    - iIntros "[H1 H2]". iApply (wp_generic_equal l1 l2 h1 h2); [done|done|]. iFrame. iIntros "_ _". done.
    - by apply sep_intro.
    - intros b h' H. exact H. }
  assert (U : ∀ a b c, gens_have_uri (dup_list a b c)) by (intros; by repeat constructor).
  split.
  - destruct (storable_glist (dup_list 1 2 3) ∅) as (p2 & h2 & D2 & H2). destruct (storable_glist (dup_list 1 2 3) h2) as (p1 & h1 & D1 & H1).
    apply glist_spec in H1, H2. exists h1, h2, p1, p2, (dup_list 1 2 3). split_and!; [done|done|done|].
    eapply runs_weaken; [by apply (X h1 h2 p1 p2 (dup_list 1 2 3) (dup_list 1 2 3))|]. intros b h' ->. by vm_compute.
  - set (la := [Gen (Some 1) (Some (Some (lit "a"), 1)); Gen (Some 1) (Some (Some (lit "a"), 1))]).
    set (lb := [Gen (Some 1) (Some (Some (lit "a"), 1)); Gen (Some 2) (Some (Some (lit "b"), 1))]).
    assert (Ua : gens_have_uri la) by (by repeat constructor). assert (Ub : gens_have_uri lb) by (by repeat constructor).
    destruct (storable_glist lb ∅) as (p2 & h2 & D2 & H2). destruct (storable_glist la h2) as (p1 & h1 & D1 & H1).
    apply glist_spec in H1, H2. exists h1, h2, p1, p2, la, lb. split_and!; [done|done|done|..].
    + eapply runs_weaken; [by apply (X h1 h2 p1 p2 la lb)|]. intros b h' ->. by vm_compute.
    + rewrite map_union_comm; [|done]. eapply runs_weaken; [by apply (X h2 h1 p2 p1 lb la)|]. intros b h' ->. by vm_compute.
Qed.
Print Assumptions C31_extension_duplicates_refuted.

(** The conditions are met by real scops: two scops whose statements have the same extensions in
    another order are found equal, and a change of one coefficient is noticed. *)
Definition eq_body : gen := Gen (Some 1) (Some (Some (lit "body"), 2)).
Definition eq_comment : gen := Gen (Some 7) (Some (Some (lit "comment"), 5)).
Definition eq_scop (k : Z) (e : list gen) : scop :=
  Scop 1 (Some (lit "C")) [] [] [Stmt [lostr k] [lostr 2; lostr 3] [[lostr 4]; []] e] [(Some (lit "body"), 2)] [].
Lemma eq_scop_wf k e : -10 ≤ k ≤ 10 → unique_gens e → wf_scop lp64_debug (eq_scop k e).
Proof.
  intros Hk He. assert (∀ k, -10 ≤ k ≤ 10 → wf_rel lp64_debug (lostr k)) as Hr.
  { intros j Hj. unfold wf_rel, lostr; cbn [rtype rprec nrows ncols nout nin nloc npar rm]. LoopLemmas.wf_lit. }
  assert (unique_gens []) as Hg. { split; constructor. }
  split; [constructor|]. split; [done|]. split; [|split; [|done]].
  - constructor; [|constructor]. split_and!; cbn [st_domain st_scattering st_access st_extension]; [..|done].
    + unfold wf_union. repeat (apply Forall_cons_2; [apply Hr; lia|]); apply Forall_nil_2.
    + unfold wf_union. repeat (apply Forall_cons_2; [apply Hr; lia|]); apply Forall_nil_2.
    + apply Forall_cons_2; [|apply Forall_cons_2; [|apply Forall_nil_2]]; unfold wf_union; repeat (apply Forall_cons_2; [apply Hr; lia|]); apply Forall_nil_2.
  - split; [by repeat constructor|]. cbn. constructor; [by intros []|constructor].
Qed.
Example C31_example : ∀ h1 h2 p1 p2 k, -10 ≤ k ≤ 10 →
  stores_scops h1 p1 [eq_scop 1 [eq_body; eq_comment]] → stores_scops h2 p2 [eq_scop k [eq_comment; eq_body]] → h1 ##ₘ h2 →
  runs_to (osl_scop_equal_p (cfg := lp64_debug) p1 p2) (h1 ∪ h2) (λ b _, b = bool_decide (k = 1)).
Proof.
  intros h1 h2 p1 p2 k Hk H1 H2 Hd.
  assert (unique_gens [eq_body; eq_comment] ∧ unique_gens [eq_comment; eq_body]) as [U1 U2].
  { split; (split; [by repeat constructor|]); cbn; (constructor; [intros [?|[]]; done|]); constructor; [by intros []|constructor|by intros []|constructor]. }
  eapply runs_weaken; [apply (C31_scop_equal lp64_debug h1 h2 p1 p2 [eq_scop 1 [eq_body; eq_comment]] [eq_scop k [eq_comment; eq_body]]); try done|].
  - constructor; [|constructor]. by apply eq_scop_wf.
  - constructor; [|constructor]. by apply eq_scop_wf.
  - intros b h' [_ Hb]. case_bool_decide as E.
    + subst k. apply Hb. constructor; [|constructor]. split; [|done]. constructor; cbn; try done. constructor; [|constructor].
      constructor; cbn; try done. constructor.
    + destruct b; [|done]. exfalso. destruct Hb as [Hb _]. specialize (Hb eq_refl). inversion Hb as [|? ? ? ? [[_ _ _ _ X _] _] _]; subst.
      cbn in X. inversion X as [|? ? ? ? [Y _ _ _] _]; subst. cbn in Y. injection Y as Y. lia.
Qed.
