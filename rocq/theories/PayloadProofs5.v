(** * PayloadProofs5: texts, annotations, and the extensions that are lists *)
From stdpp Require Import gmap.
From iris.proofmode Require Import tactics.
From Coq Require Import ZifyBool ZifyNat.
From Verif Require Import Base IntModel VectorModel RelationModel RelSpec StringsModel ExtModel HeapModel HeapObjects HeapSpec HeapLogic HeapProofs PayloadModel PayloadSpec PayloadProofs PayloadProofs2 PayloadProofs3 PayloadProofs4 PropHeap.
Local Open Scope string_scope.
Local Open Scope list_scope.
Local Open Scope Z_scope.
Local Open Scope bi_scope.
Notation loop := HeapModel.loop.

Lemma own_size h m k : (M m ⊢ size_ge k) → sees h m → own h ⊢ size_ge k.
Proof.
  intros Hm Hs. destruct (sees_take h m Hs) as (hs & H & ->). rewrite -(size_ge_frame k (own hs -∗ own h)).
  apply bi.sep_mono; [|done]. rewrite -Hm. rewrite M_own. iIntros "H". iExists hs. by iFrame.
Qed.
Lemma size_somewhere {A} (P : A → mem) k : (∀ x, M (P x) ⊢ size_ge k) → M (somewhere P) ⊢ size_ge k.
Proof. intros H. rewrite M_somewhere. apply bi.exist_elim. done. Qed.

Section R.
Context {cfg : config} {al : Allocator obj}.

(** ** Texts *)
Lemma wp_text_append t ps x ty line s (Q : _ → oprop) :
  M (m_text t ps x) ∗ M (m_str line s) ∗ (∀ t', M (m_text t' (ps ++ [line]) (x ++ [(ty, s)])) -∗ Q t') ⊢ wp (text_append_p t ty line) Q.
Proof.
  unfold m_text, text_append_p. iIntros "((%Hc & I & T) & S & K)". rewrite Hc.
  replace (Z.to_nat (Z.of_nat (List.length x) + 1)) with (List.length x + 1)%nat by lia. rewrite Nat2Z.id.
  assert (List.length x = List.length (map fst x)) as E1 by (by rewrite map_length).
  assert (List.length x = List.length (map snd x)) as E2 by (by rewrite map_length).
  iApply wp_bind. iApply (wp_grow_table _ _ _ _ _ E2). iFrame "T". iIntros (b) "T X %HL".
  iApply wp_bind. iApply (wp_grow_ints _ _ _ _ E1). iFrame "I". iIntros (i') "I".
  iApply wp_bind. iApply (wp_push_table _ _ _ _ _ _ _ HL). iFrame "T X S". iIntros "T".
  iApply wp_bind. iApply (wp_push_int _ _ _ _ _ E1). iFrame "I". iIntros "I". iApply wp_ret. iApply "K". cbn [t_count t_types t_lines].
  rewrite !map_app app_length. cbn [map fst snd List.length]. iSplitR; [iPureIntro; lia|]. iSplitL "I"; done.
Qed.
Lemma m_text_none : emp ⊢ M (m_text no_text [] []).
Proof. unfold m_text, m_ints, m_table. cbn. iIntros "_". iSplitR; [done|]. iSplitR; [done|]. iSplitR; done. Qed.
Lemma sees_text h t ps x : sees h (m_text t ps x) →
  (t_count t = Z.of_nat (List.length x) ∧ sees h (m_ints (t_types t) (map fst x)) ∧ sees h (m_table (t_lines t) ps (map snd x)))%type.
Proof. unfold m_text. intros [?%sees_nothing [? ?]%sees_beside]%sees_beside. done. Qed.
Lemma wp_text_clone_loop h t ps x (Q : _ → oprop) : sees h (m_text t ps x) → lines_present x → ∀ k i d qs, (i + k = List.length x)%nat →
  own h ∗ M (m_text d qs (firstn i x)) ∗ (∀ d' qs', own h -∗ M (m_text d' qs' x) -∗ Q d') ⊢ wp (text_clone_loop k i t d) Q.
Proof.
  intros Hs Hl. destruct (sees_text _ _ _ _ Hs) as (Hc & Hi & Ht). induction k as [|k IH]; intros i d qs Hk; cbn [text_clone_loop].
  - iIntros "(H & D & K)". iApply wp_ret. rewrite -> firstn_all2 by lia. iApply ("K" with "H D").
  - destruct (lookup_ex x i) as [[ty s] Hx]; [lia|]. pose proof (Forall_lookup_1 _ _ _ _ Hl Hx) as Hn. cbn in Hn. destruct s as [s|]; [|done].
    destruct (sees_table h _ ps (map snd x) i (Some s) Ht) as (p & Hb & Hp & Hps).
    { change (map snd x) with (snd <$> x). rewrite list_lookup_fmap Hx. done. }
    iIntros "(H & D & K)". iApply wp_bind. iApply wp_ptr_at_own; [done|by apply map_Some_lookup|]. iFrame "H". iIntros "H".
    iApply wp_bind. iApply wp_strdup; [done|]. iFrame "H". iIntros (q) "H L". 
    iApply wp_bind. iApply (wp_read_int _ _ (map fst x) i ty); [done| |].
    { change (map fst x) with (fst <$> x). rewrite list_lookup_fmap Hx. done. }
    iFrame "H". iIntros "H". iApply wp_bind. iApply wp_text_append. iFrame "D L". iIntros (d') "D". iApply (IH (S i) d' (qs ++ [q])); [lia|].
    iFrame "H K". rewrite (take_S_r x i (ty, Some s) Hx). done.
Qed.
Lemma wp_text_clone h t ps x (Q : _ → oprop) : sees h (m_text t ps x) → lines_present x →
  own h ∗ (∀ d qs, own h -∗ M (m_text d qs x) -∗ Q d) ⊢ wp (text_clone_p t) Q.
Proof.
  intros Hs Hl. pose proof (sees_text _ _ _ _ Hs) as (Hc & _). unfold text_clone_p. rewrite Hc Nat2Z.id.
  iIntros "[H K]". iApply (wp_text_clone_loop h t ps x Q Hs Hl _ 0%nat no_text []); [lia|]. iFrame "H K". rewrite firstn_O. by iApply m_text_none.
Qed.
Lemma wp_text_clean t ps x (Q : _ → oprop) : M (m_text t ps x) ∗ Q tt ⊢ wp (text_clean_p t) Q.
Proof.
  unfold m_text, text_clean_p. iIntros "[(%Hc & I & T) K]". iApply wp_bind. rewrite Hc Nat2Z.id.
  iAssert (wp (if isnull (t_lines t) then ret tt else pfor (List.length x) 0 (λ i, x0 <== ptr_at (t_lines t) i ;; (if isnull x0 then ret tt else free x0)) ;;== free (t_lines t)) (λ _, emp))
    with "[T]" as "W".
  { destruct (isnull (t_lines t)) eqn:E.
    - iApply wp_ret. unfold m_table, isnull in *. rewrite E. iDestruct "T" as "[%Hp T]". subst ps. iDestruct (m_strs_length with "T") as "[%HL T]".
      destruct (map snd x); [|done]. cbn [m_strs]. by iDestruct "T" as "_".
    - rewrite -(map_length snd x). iApply (wp_free_table _ ps (map snd x) (λ p, if isnull p then ret tt else free p)); [|by iFrame].
      intros p s Q'. apply wp_free_if_str. }
  iApply wp_wand. iFrame "W". iIntros (_) "_". iApply wp_free_if_ints. iFrame.
Qed.

(** ** Annotations *)
Lemma wp_annotation_free p x (Q : _ → oprop) : M (m_annotation p x) ∗ Q tt ⊢ wp (osl_annotation_free_p p) Q.
Proof.
  unfold osl_annotation_free_p, m_annotation. iIntros "[(%w & S) K]". destruct w as [[[t u] ps] qs]. iDestruct "S" as "(P & T & U)". rewrite M_cell.
  get "P". iApply wp_bind. iApply wp_text_clean. iFrame "T". iApply wp_bind. iApply wp_text_clean. iFrame "U". iApply wp_free. iFrame.
Qed.
Lemma wp_annotation_clone h p x (Q : _ → oprop) : sees h (m_annotation p x) → annotation_present x →
  own h ∗ (∀ q, own h -∗ M (m_annotation q x) -∗ Q q) ⊢ wp (osl_annotation_clone_p p) Q.
Proof.
  unfold osl_annotation_clone_p, m_annotation. intros Hs [H1 H2]. apply sees_somewhere in Hs as [[[[t u] ps] qs] Hs].
  apply sees_beside in Hs as [[Hp Hn]%sees_cell Hs]. apply sees_beside in Hs as [Ht Hu]. iIntros "[H K]".
  iApply wp_bind. iApply wp_malloc. iIntros (q) "N". getown Hp. iApply wp_bind. iApply wp_text_clone; [done..|]. iFrame "H". iIntros (t' ps') "H T". putp "N".
  iApply wp_bind. iApply wp_text_clone; [done..|]. iFrame "H". iIntros (u' qs') "H U". putp "N". iApply wp_ret. iApply ("K" with "H").
  iExists (t', u', ps', qs'). iSplitL "N"; [done|]. iSplitL "T"; done.
Qed.
Lemma wp_append_prefix p x ty line s (Q : _ → oprop) :
  M (m_annotation p x) ∗ M (m_str line s) ∗ (M (m_annotation p (Annotation (an_prefix x ++ [(ty, s)]) (an_suffix x))) -∗ Q tt)
  ⊢ wp (osl_annotation_append_prefix_p p ty line) Q.
Proof.
  unfold m_annotation. iIntros "[(%w & S) [L K]]". destruct w as [[[t u] ps] qs]. iDestruct "S" as "(P & T & U)". rewrite M_cell.
  get "P". iApply wp_bind. iApply wp_text_append. iFrame "T L". iIntros (t') "T". iApply wp_put. iFrame "P". iIntros "P". iApply "K".
  iExists (t', u, ps ++ [line], qs). iSplitL "P"; [done|]. iSplitL "T"; done.
Qed.
Lemma wp_append_suffix p x ty line s (Q : _ → oprop) :
  M (m_annotation p x) ∗ M (m_str line s) ∗ (M (m_annotation p (Annotation (an_prefix x) (an_suffix x ++ [(ty, s)]))) -∗ Q tt)
  ⊢ wp (osl_annotation_append_suffix_p p ty line) Q.
Proof.
  unfold m_annotation. iIntros "[(%w & S) [L K]]". destruct w as [[[t u] ps] qs]. iDestruct "S" as "(P & T & U)". rewrite M_cell.
  get "P". iApply wp_bind. iApply wp_text_append. iFrame "U L". iIntros (t') "U". iApply wp_put. iFrame "P". iIntros "P". iApply "K".
  iExists (t, t', ps, qs ++ [line]). iSplitL "P"; [done|]. iSplitL "T"; done.
Qed.

(** ** Regions *)
Lemma size_more (P Q : mem) k : (M P ⊢ size_ge 1) → (M Q ⊢ size_ge k) → M (P ⋆ Q) ⊢ size_ge (S k).
Proof. intros HP HQ. rewrite M_beside. by apply (size_ge_sep _ _ 1 k). Qed.
Lemma size_first (P Q : mem) k : (M P ⊢ size_ge k) → M (P ⋆ Q) ⊢ size_ge k.
Proof. intros HP. rewrite M_beside HP. apply size_ge_frame. Qed.
Lemma size_cell p b : M (cell p b) ⊢ size_ge 1.
Proof. rewrite M_cell. apply size_ge_cell. Qed.
Lemma m_regions_size l : ∀ p, M (m_regions p l) ⊢ size_ge (List.length l).
Proof.
  induction l as [|x l IH]; intros p; cbn [m_regions]; [apply size_ge_0|]. apply size_somewhere. intros [[[[[[[[t u] v] w] ps] qs] rs] ss] n].
  apply size_more; [apply size_first, size_cell|apply IH].
Qed.
Lemma wp_region_free_loop l : ∀ p fuel (Q : _ → oprop), (List.length l < fuel)%nat → M (m_regions p l) ∗ Q tt ⊢ wp (region_free_loop fuel p) Q.
Proof.
  induction l as [|x l IH]; intros p [|fuel] Q Hf; try (cbn in Hf; lia); cbn [region_free_loop m_regions].
  - iIntros "[%E K]". subst p. by iApply wp_ret.
  - iIntros "[(%w & S) K]". destruct w as [[[[[[[[t u] v] w] ps] qs] rs] ss] n]. iDestruct "S" as "((P & A & B & C & D) & R)". rewrite M_cell.
    iDestruct (isnull_false with "P") as "[%Ep P]". rewrite Ep. get "P". iApply wp_bind. iApply wp_text_clean. iFrame "A". iApply wp_bind. iApply wp_text_clean. iFrame "B".
    iApply wp_bind. iApply wp_text_clean. iFrame "C". iApply wp_bind. iApply wp_text_clean. iFrame "D". iApply wp_bind. iApply wp_free. iFrame "P".
    iApply IH; [cbn in Hf; lia|]. iFrame.
Qed.
Lemma wp_region_free p l (Q : _ → oprop) : M (m_regions p l) ∗ Q tt ⊢ wp (osl_region_free_p p) Q.
Proof. apply (wp_loop_on (List.length l)); [apply m_regions_size|]. intros n Hn. by apply wp_region_free_loop. Qed.
Definition m_region_one (q : ptr) (x : region) (n : ptr) : mem :=
  somewhere (λ '(t, u, v, w, ps, qs, rs, ss), cell q (BRegion (re_location x) t u v w n) ⋆ m_text t ps (re_prefix x) ⋆ m_text u qs (re_suffix x) ⋆
       m_text v rs (re_prelude x) ⋆ m_text w ss (re_postlude x)).
Lemma m_regions_cons p x l : M (m_regions p (x :: l)) ⊣⊢ ∃ n, M (m_region_one p x n) ∗ M (m_regions n l).
Proof.
  cbn [m_regions]. unfold m_region_one. iSplit.
  - iIntros "(%w & S)". destruct w as [[[[[[[[t u] v] w] ps] qs] rs] ss] n]. iDestruct "S" as "(A & R)". iExists n. iFrame "R". iExists (t, u, v, w, ps, qs, rs, ss). done.
  - iIntros "(%n & (%w & A) & R)". destruct w as [[[[[[[t u] v] w] ps] qs] rs] ss]. iExists (t, u, v, w, ps, qs, rs, ss, n). iSplitL "A"; done.
Qed.
Lemma wp_set_region_next q x n n' (Q : _ → oprop) : M (m_region_one q x n) ∗ (M (m_region_one q x n') -∗ Q tt) ⊢ wp (set_region_next q n') Q.
Proof.
  unfold m_region_one. iIntros "[(%w & A) K]". destruct w as [[[[[[[t u] v] w] ps] qs] rs] ss]. iDestruct "A" as "(P & A)". rewrite M_cell. get "P".
  iApply wp_put. iFrame "P". iIntros "P". iApply "K". iExists (t, u, v, w, ps, qs, rs, ss). iSplitL "P"; done.
Qed.
Lemma sees_regions h p x l : sees h (m_regions p (x :: l)) → (∃ t u v w ps qs rs ss n, h !! p = Some (CBlock (BRegion (re_location x) t u v w n)) ∧ p ≠ NULL ∧
  sees h (m_text t ps (re_prefix x)) ∧ sees h (m_text u qs (re_suffix x)) ∧ sees h (m_text v rs (re_prelude x)) ∧ sees h (m_text w ss (re_postlude x)) ∧ sees h (m_regions n l))%type.
Proof.
  cbn [m_regions]. intros [[[[[[[[[t u] v] w] ps] qs] rs] ss] n] H]%sees_somewhere. exists t, u, v, w, ps, qs, rs, ss, n.
  apply sees_beside in H as [H Hl]. apply sees_beside in H as [[Ha Hb]%sees_cell H]. apply sees_beside in H as [Hc H]. apply sees_beside in H as [Hd H]. apply sees_beside in H as [He H]. done.
Qed.
Lemma wp_region_clone_one h p x l (Q : _ → oprop) : sees h (m_regions p (x :: l)) → region_present x →
  own h ∗ (∀ q, own h -∗ M (m_region_one q x NULL) -∗ Q q) ⊢ wp (osl_region_clone_one_p p) Q.
Proof.
  intros (t & u & v & w & ps & qs & rs & ss & n & Hp & Hn & Ht & Hu & Hv & Hw & Hl)%sees_regions (P1 & P2 & P3 & P4). iIntros "[H K]".
  iApply wp_bind. iApply wp_malloc. iIntros (q) "N". getown Hp.
  iApply wp_bind. iApply wp_text_clone; [done..|]. iFrame "H". iIntros (t' ps') "H T".
  iApply wp_bind. iApply wp_text_clone; [done..|]. iFrame "H". iIntros (u' qs') "H U".
  iApply wp_bind. iApply wp_text_clone; [done..|]. iFrame "H". iIntros (v' rs') "H V".
  iApply wp_bind. iApply wp_text_clone; [done..|]. iFrame "H". iIntros (w' ss') "H W". putp "N". iApply wp_ret. iApply ("K" with "H").
  iExists (t', u', v', w', ps', qs', rs', ss'). iSplitL "N"; [done|]. iSplitL "T"; [done|]. iSplitL "U"; [done|]. iSplitL "V"; done.
Qed.
Lemma sees_regions_null h p l : sees h (m_regions p l) → isnull p = match l with [] => true | _ => false end.
Proof.
  destruct l as [|x l].
  - by intros ->%sees_nothing.
  - intros (t & u & v & w & ps & qs & rs & ss & n & Hp & Hn & _)%sees_regions. by apply null_ne.
Qed.
Lemma wp_region_clone_loop h l : ∀ p last x fuel (Q : _ → oprop), sees h (m_regions p l) → Forall region_present l → (List.length l < fuel)%nat →
  own h ∗ M (m_region_one last x NULL) ∗ (own h -∗ M (m_regions last (x :: l)) -∗ Q tt) ⊢ wp (region_clone_loop fuel last p) Q.
Proof.
  induction l as [|y l IH]; intros p last x [|fuel] Q Hs Hl Hf; try (cbn in Hf; lia); cbn [region_clone_loop]; pose proof (sees_regions_null _ _ _ Hs) as E; rewrite E.
  - iIntros "(H & L & K)". iApply wp_ret. iApply ("K" with "H"). rewrite m_regions_cons. iExists NULL. iFrame "L". done.
  - inversion Hl; subst. iIntros "(H & L & K)". iApply wp_bind. iApply (wp_region_clone_one h p y l); [done..|]. iFrame "H". iIntros (q) "H N".
    iApply wp_bind. iApply wp_set_region_next. iFrame "L". iIntros "L". 
    destruct (sees_regions _ _ _ _ Hs) as (t & u & v & w & ps & qs & rs & ss & n & Hp & _ & _ & _ & _ & _ & Hn). getown Hp.
    iApply (IH n q y); [done..|cbn in Hf; lia|]. iFrame "H N". iIntros "H N". iApply ("K" with "H"). rewrite (m_regions_cons last). iExists q. iFrame.
Qed.
Lemma wp_region_clone h p l (Q : _ → oprop) : sees h (m_regions p l) → Forall region_present l →
  own h ∗ (∀ q, own h -∗ M (m_regions q l) -∗ Q q) ⊢ wp (osl_region_clone_p p) Q.
Proof.
  intros Hs Hl. unfold osl_region_clone_p. pose proof (sees_regions_null _ _ _ Hs) as E. rewrite E. destruct l as [|x l].
  - iIntros "[H K]". iApply wp_ret. iApply ("K" with "H"). done.
  - inversion Hl; subst. iIntros "[H K]". iApply wp_bind. iApply (wp_region_clone_one h p x l); [done..|]. iFrame "H". iIntros (q) "H N".
    destruct (sees_regions _ _ _ _ Hs) as (t & u & v & w & ps & qs & rs & ss & n & Hp & _ & _ & _ & _ & _ & Hn). getown Hp.
    iApply wp_bind. iCombine "N K" as "K". iCombine "H K" as "K". iStopProof.
    apply (wp_loop_on (List.length l)); [eapply own_size; [apply m_regions_size|done]|]. intros k Hk. iIntros "(H & N & K)".
    iApply (wp_region_clone_loop h l n q x); [done..|]. iFrame "H N". iIntros "H N". iApply wp_ret. iApply ("K" with "H N").
Qed.
End R.
