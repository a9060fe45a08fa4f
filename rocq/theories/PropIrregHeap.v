(** * PropIrregHeap: the irregular extension in memory (C59) *)
From stdpp Require Import gmap.
From iris.proofmode Require Import tactics.
From Coq Require Import ZifyBool ZifyNat.
From Verif Require Import Base IntModel VectorModel RelationModel RelSpec StringsModel ExtModel HeapModel HeapObjects HeapSpec HeapLogic HeapProofs PropHeap PropHeap2 PayloadModel PayloadSpec PayloadProofs PayloadProofs2 PayloadProofs3 PayloadProofs4 PayloadProofs7 PayloadExists IrregModel PropIrreg IrregHeapModel IrregHeapSpec IrregHeapProofs.
Local Open Scope string_scope.
Local Open Scope list_scope.
Local Open Scope Z_scope.

Lemma makes_intro {al : Allocator obj} {X} (c : oprog ptr) h (m : ptr → X → mem) x :
  (∀ Q : _ → oprop, (own h ∗ (∀ q, own h -∗ M (m q x) -∗ Q q))%I ⊢ wp c Q) → makes c h m x.
Proof.
  intros H. apply (runs_intro (own h) (λ q, own h ∗ M (m q x))%I); [|done|].
  - iIntros "H". iApply H. iFrame "H". iIntros (q) "H N". iFrame.
  - intros q h' (h1 & hc & E & Hd & Ho & Hc%M_holds). cbn in Ho. subst h1 h'. exists hc. split; [apply splits_2; done|done].
Qed.

(** osl_irregular_malloc makes an empty structure. *)
Theorem C59_malloc : ∀ (al : Allocator obj) h, makes osl_irregular_malloc_p h m_irregular (Irregular [] 0 0 []).
Proof.
  intros al h. apply makes_intro. intros Q. iIntros "[H K]". iApply wp_malloc. iIntros (p) "P". iApply ("K" with "H").
  iExists (NULL, NULL, NULL, NULL, NULL, [], [], []). cbn [ir_control ir_exit ir_statements ir_predicates List.map m_each]. rewrite !M_beside M_cell. iFrame "P".
  repeat iSplit; done.
Qed.
Print Assumptions C59_malloc.

(** osl_irregular_free releases every block of the structure and nothing else. *)
Theorem C59_free : ∀ (al : Allocator obj) x, releases osl_irregular_free_p m_irregular x.
Proof. intros al x. apply releases_intro. intros p Q. apply wp_irregular_free. Qed.
Print Assumptions C59_free.
Theorem C59_free_null : ∀ (al : Allocator obj) h, runs_to (osl_irregular_free_p NULL) h (λ _ h', h' = h).
Proof. intros al h hf Hd. exists tt, h. done. Qed.
Print Assumptions C59_free_null.

(** The additions make a new structure with the new predicate after the last one of its kind, in memory of their own; the old structure and the
    arguments are not changed.  The arguments may be parts of the old structure. *)
Theorem C59_add_control : ∀ (al : Allocator obj) h p x a its b body,
  within h (m_irregular p x) → within h (m_iterators a (map Some its)) → within h (m_str b (Some body)) →
  makes (osl_irregular_add_control_p p a (count its) b) h m_irregular (with_control x its body).
Proof. intros al h p x a its b body H1 H2 H3. apply makes_intro. intros Q. by apply wp_irregular_add_control. Qed.
Print Assumptions C59_add_control.
Theorem C59_add_exit : ∀ (al : Allocator obj) h p x a its b body,
  within h (m_irregular p x) → within h (m_iterators a (map Some its)) → within h (m_str b (Some body)) →
  makes (osl_irregular_add_exit_p p a (count its) b) h m_irregular (with_exit x its body).
Proof. intros al h p x a its b body H1 H2 H3. apply makes_intro. intros Q. by apply wp_irregular_add_exit. Qed.
Print Assumptions C59_add_exit.
Theorem C59_add_predicates : ∀ (al : Allocator obj) h p x a l, within h (m_irregular p x) → within h (m_ints a l) →
  makes (osl_irregular_add_predicates_p p a (count l)) h m_irregular (with_statement x l).
Proof. intros al h p x a l H1 H2. apply makes_intro. intros Q. by apply wp_irregular_add_predicates. Qed.
Print Assumptions C59_add_predicates.

(** The results are those of the additions of C48. *)
Theorem C59_agrees : ∀ x its body l, consistent x →
  osl_irregular_add_control x its body = Ok (with_control x its body) ∧
  osl_irregular_add_exit x its body = Ok (with_exit x its body) ∧
  osl_irregular_add_predicates x l = Ok (with_statement x l).
Proof.
  intros [s c e ps] its body l (Hc & He & Hl). cbn [ir_control ir_exit ir_predicates] in *. set (k := Z.to_nat c).
  assert (zlength (firstn k ps) = c) as E1 by (unfold zlength in *; rewrite firstn_length; lia).
  assert (zlength (skipn k ps) = e) as E2 by (unfold zlength in *; rewrite skipn_length; lia).
  destruct (C48_add s (firstn k ps) (skipn k ps) its body l) as (A & B & C). rewrite !E1 !E2 in A, B, C. rewrite !(firstn_skipn k ps) in A, B, C.
  rewrite A B C. unfold with_control, with_exit, with_statement. cbn [ir_control ir_exit ir_predicates ir_statements]. fold k. split_and!.
  - by rewrite -app_assoc.
  - by rewrite app_assoc firstn_skipn.
  - done.
Qed.
Print Assumptions C59_agrees.

(** Any sequence of additions, the structure it replaces being freed each time: in the end only the last structure is left, and it holds the control
    predicates, the exit predicates and the guards of the statements in the order given. *)
Inductive request := Control (a : ptr) (its : list str) (b : ptr) (body : str) | Exit (a : ptr) (its : list str) (b : ptr) (body : str) | Guards (a : ptr) (l : list Z).
Definition available (h : heap obj) (r : request) : Prop :=
  match r with
  | Control a its b body | Exit a its b body => within h (m_iterators a (map Some its)) ∧ within h (m_str b (Some body))
  | Guards a l => within h (m_ints a l)
  end.
Section HISTORY.
Context {al : Allocator obj}.
Definition add_one (p : ptr) (r : request) : oprog ptr :=
  match r with
  | Control a its b _ => osl_irregular_add_control_p p a (count its) b
  | Exit a its b _ => osl_irregular_add_exit_p p a (count its) b
  | Guards a l => osl_irregular_add_predicates_p p a (count l)
  end.
Fixpoint add_all (p : ptr) (l : list request) : oprog ptr :=
  match l with [] => ret p | r :: l' => q <== add_one p r ;; osl_irregular_free_p p ;;== add_all q l' end.
End HISTORY.
Definition controls_of (l : list request) : list predicate :=
  flat_map (λ r, match r with Control _ its _ body => [Predicate (map Some its) (Some body)] | _ => [] end) l.
Definition exits_of (l : list request) : list predicate :=
  flat_map (λ r, match r with Exit _ its _ body => [Predicate (map Some its) (Some body)] | _ => [] end) l.
Definition guards_of (l : list request) : list (list Z) :=
  flat_map (λ r, match r with Guards _ l => [l] | _ => [] end) l.
Definition holding (s : list (list Z)) (c e : list predicate) : irregular := Irregular s (count c) (count e) (c ++ e).
Lemma sees_part (h1 h2 : heap obj) m : h1 ##ₘ h2 → sees h1 m → sees (h1 ∪ h2) m.
Proof. intros Hd. apply sees_mono. apply map_union_subseteq_l. Qed.
Lemma wp_add_all {al : Allocator obj} h l : Forall (available h) l → ∀ s c e p (Q : _ → oprop),
  (own h ∗ M (m_irregular p (holding s c e)) ∗ (∀ q, own h -∗ M (m_irregular q (holding (s ++ guards_of l) (c ++ controls_of l) (e ++ exits_of l))) -∗ Q q))%I
  ⊢ wp (add_all p l) Q.
Proof.
  induction l as [|r l IH]; intros Hl s c e p Q; cbn [add_all].
  - cbn. rewrite !app_nil_r. iIntros "(H & P & K)". iApply wp_ret. iApply ("K" with "H P").
  - apply List.Forall_cons_iff in Hl as [Hr Hl]. iIntros "(H & P & K)". rewrite M_own. iDestruct "P" as (hp) "[%Hp P]".
    iAssert (<affine> ⌜h ##ₘ hp⌝ ∗ own (h ∪ hp))%I with "[H P]" as "[%Hd H]".
    { iStopProof. constructor. intros h' (h1 & h2 & -> & Hd & H1 & H2). cbn in H1, H2. subst h1 h2. exists ∅, (h ∪ hp). rewrite left_id_L. split; [done|].
      split; [apply map_disjoint_empty_l|]. split; [|done]. split; done. }
    assert (∃ s' c' e', (∀ Q' : _ → oprop, (own (h ∪ hp) ∗ (∀ q, own (h ∪ hp) -∗ M (m_irregular q (holding s' c' e')) -∗ Q' q))%I ⊢ wp (add_one p r) Q') ∧
      s ++ guards_of (r :: l) = s' ++ guards_of l ∧ c ++ controls_of (r :: l) = c' ++ controls_of l ∧ e ++ exits_of (r :: l) = e' ++ exits_of l) as (s' & c' & e' & Hw & E1 & E2 & E3).
    { assert (sees (h ∪ hp) (m_irregular p (holding s c e))) as Sx by (exists hp; split; [by apply map_union_subseteq_r|done]).
      assert (Z.to_nat (count c) = List.length c) as Ec by (unfold count; lia).
      destruct r as [a its b body|a its b body|a g]; cbn [available add_one] in *.
      - destruct Hr as [H1 H2]. exists s, (c ++ [Predicate (map Some its) (Some body)]), e. split; [|cbn; by rewrite -app_assoc].
        intros Q'. pose proof (wp_irregular_add_control (h ∪ hp) p _ a its b body Q' Sx (sees_part _ _ _ Hd H1) (sees_part _ _ _ Hd H2)) as W.
        unfold with_control, holding in W. cbn [ir_statements ir_control ir_exit ir_predicates] in W.
        rewrite Ec take_app drop_app in W. unfold holding. rewrite -app_assoc. cbn [app].
        replace (count (c ++ [Predicate (map Some its) (Some body)])) with (count c + 1)%Z; [exact W|]. unfold count. rewrite app_length. cbn. lia.
      - destruct Hr as [H1 H2]. exists s, c, (e ++ [Predicate (map Some its) (Some body)]). split; [|cbn; by rewrite -app_assoc].
        intros Q'. pose proof (wp_irregular_add_exit (h ∪ hp) p _ a its b body Q' Sx (sees_part _ _ _ Hd H1) (sees_part _ _ _ Hd H2)) as W.
        unfold with_exit, holding in W. cbn [ir_statements ir_control ir_exit ir_predicates] in W. unfold holding. rewrite app_assoc.
        replace (count (e ++ [Predicate (map Some its) (Some body)])) with (count e + 1)%Z; [exact W|]. unfold count. rewrite app_length. cbn. lia.
      - exists (s ++ [g]), c, e. split; [|cbn; by rewrite -app_assoc].
        intros Q'. exact (wp_irregular_add_predicates (h ∪ hp) p _ a g Q' Sx (sees_part _ _ _ Hd Hr)). }
    iApply wp_bind. iApply Hw. iFrame "H". iIntros (q) "H N". rewrite own_union; [|done]. iDestruct "H" as "[H P]".
    iApply wp_bind. iApply wp_irregular_free. iSplitL "P"; [rewrite M_own; iExists hp; by iFrame|].
    rewrite E1 E2 E3. iApply (IH Hl s' c' e' q). iFrame.
Qed.
Theorem C59_history : ∀ (al : Allocator obj) h l, Forall (available h) l →
  makes (p <== osl_irregular_malloc_p ;; add_all p l) h m_irregular (holding (guards_of l) (controls_of l) (exits_of l)).
Proof.
  intros al h l Hl. apply makes_intro. intros Q. iIntros "[H K]". iApply wp_bind. iApply wp_malloc. iIntros (p) "P".
  iApply (wp_add_all h l Hl [] [] [] p). iFrame "H K". unfold holding.
  iExists (NULL, NULL, NULL, NULL, NULL, [], [], []). cbn [ir_control ir_exit ir_statements ir_predicates List.map m_each app]. rewrite !M_beside M_cell. iFrame "P".
  repeat iSplit; done.
Qed.
Print Assumptions C59_history.

(** osl_irregular_clone copies a structure without predicate, in memory of its own; it has undefined behaviour on every other one. *)
Theorem C59_clone : ∀ (al : Allocator obj) x, ir_predicates x = [] → copies osl_irregular_clone_p m_irregular x x.
Proof. intros al x H0. apply copies_intro. intros h p Q Hs. by apply wp_irregular_clone. Qed.
Print Assumptions C59_clone.
Theorem C59_clone_refuted : ∀ (al : Allocator obj) h p x, m_irregular p x h → ir_predicates x ≠ [] → undefined (osl_irregular_clone_p p) h.
Proof.
  intros al h p x Hx H0 hf Hd. destruct (wpu_irregular_clone h p x (sees_self h _ Hx) H0) as [W]. by apply (W h eq_refl hf Hd).
Qed.
Print Assumptions C59_clone_refuted.

(** Every structure exists in some memory. *)
Lemma avail_each {X} (m : ptr → X → mem) l : (∀ x, avail (∃ p, M (m p x))%I) → avail (∃ ps, M (m_each m ps l))%I.
Proof.
  intros Hm. induction l as [|s l IH].
  - eapply avail_mono; [|exact avail_emp]. iIntros "_". iExists []. done.
  - eapply avail_mono; [|exact (avail_pair _ _ (Hm s) IH)]. iIntros "[%z [P Q]]". iExists (z.1 :: z.2). cbn [m_each]. rewrite M_beside. iFrame.
Qed.
Lemma avail_iterators l : avail (∃ p, M (m_iterators p l))%I.
Proof. eapply avail_mono; [|exact (avail_table l)]. iIntros "[%z H]". iExists z.1, z.2. done. Qed.
Lemma avail_rows {X} (m : ptr → X → mem) l : (∀ x, avail (∃ p, M (m p x))%I) → avail (∃ z, M (m_pointers z.1 z.2) ∗ M (m_each m z.2 l))%I.
Proof.
  intros Hm. eapply avail_mono; [|exact (avail_block (λ ps, BPtrs (map Some ps)) _ (avail_each m l Hm))]. iIntros "(%p & %ps & P & R)". iExists (p, ps). cbn [fst snd].
  iFrame "R". by iApply m_pointers_block.
Qed.
Lemma avail_irregular x : consistent x → avail (∃ p, M (m_irregular p x))%I.
Proof.
  intros (Hc & He & Hl). set (L := ir_predicates x) in *.
  eapply avail_mono; [|exact (avail_block (λ z : ptr * ((ptr * list ptr) * ((ptr * list ptr) * (ptr * (ptr * list ptr)))),
      BIrregular (ir_control x) (ir_exit x) z.1 z.2.1.1 z.2.2.1.1 (count (ir_statements x)) z.2.2.2.1 z.2.2.2.2.1) _
    (avail_pair _ _ (avail_ints (map (λ y, count (pd_iterators y)) L)) (avail_pair _ _ (avail_rows m_iterators (map pd_iterators L) avail_iterators)
      (avail_pair _ _ (avail_rows m_str (map pd_body L) avail_str) (avail_pair _ _ (avail_ints (map count (ir_statements x))) (avail_rows m_ints (ir_statements x) avail_ints))))))].
  iIntros "(%p & %z & P & A & (B & C) & (D & E) & F & (G & H))". iExists p.
  iExists (z.1, z.2.1.1, z.2.2.1.1, z.2.2.2.1, z.2.2.2.2.1, z.2.1.2, z.2.2.1.2, z.2.2.2.2.2). rewrite !M_beside M_cell. fold L. iFrame.
  iPureIntro. split_and!; [done..|]. unfold count, zlength in *. lia.
Qed.
Theorem C59_exists : ∀ x, consistent x → ∃ h p, m_irregular p x h.
Proof. intros x Hx. destruct (avail_irregular x Hx ∅) as (h & _ & p & H%M_holds). by exists h, p. Qed.
Print Assumptions C59_exists.

(** A run with every function: two additions of each kind, then everything is freed. *)
Section RUN.
Context {al : Allocator obj}.
Definition irregular_run : oprog unit :=
  s <== malloc (BStr (lit "i")) ;; t <== malloc (BStr (lit "i > 0")) ;; a <== malloc (BPtrs [Some s]) ;; g <== malloc (BInts [Some 0; Some 1]) ;;
  p <== osl_irregular_malloc_p ;;
  q <== add_all p [Exit a [lit "i"] t (lit "i > 0"); Guards g [0; 1]; Control a [lit "i"] t (lit "i > 0"); Exit a [lit "i"] t (lit "i > 0"); Guards g [0; 1]] ;;
  osl_irregular_free_p q ;;==
  free g ;;== free a ;;== free t ;;== free s.
End RUN.
Example C59_run : match @irregular_run (bump_allocator obj) ∅ with Ok (_, h) => map_to_list h = [] | _ => False end.
Proof. vm_compute. reflexivity. Qed.
Example C59_witness : consistent (Irregular [[0; 1]] 1 1 [Predicate [Some (lit "i")] (Some (lit "i > 0")); Predicate [] (Some (lit "stop"))]) ∧
  with_control (Irregular [[0; 1]] 1 1 [Predicate [Some (lit "i")] (Some (lit "i > 0")); Predicate [] (Some (lit "stop"))]) [lit "j"] (lit "j > 0") =
  Irregular [[0; 1]] 2 1 [Predicate [Some (lit "i")] (Some (lit "i > 0")); Predicate [Some (lit "j")] (Some (lit "j > 0")); Predicate [] (Some (lit "stop"))].
Proof. split; [|reflexivity]. split; [cbn; lia|]. split; [cbn; lia|reflexivity]. Qed.
