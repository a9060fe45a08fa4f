(** * PayloadExists: memories that hold given values exist, beside any other memory *)
From stdpp Require Import gmap.
From iris.proofmode Require Import tactics.
From Coq Require Import ZifyBool ZifyNat.
From Verif Require Import Base VectorModel RelationModel StringsModel ExtModel HeapModel HeapObjects HeapSpec HeapLogic HeapProofs PayloadModel PayloadSpec PayloadProofs PayloadProofs2 PayloadProofs6 PayloadProofs7 PropHeap.
Local Open Scope string_scope.
Local Open Scope list_scope.
Local Open Scope Z_scope.
Local Open Scope bi_scope.

Definition avail (P : oprop) : Prop := (∀ hf : heap obj, ∃ h, h ##ₘ hf ∧ P h)%type.
Lemma avail_mono P Q : (P ⊢ Q) → avail P → avail Q.
Proof. intros [H] HP hf. destruct (HP hf) as (h & Hd & Hh). exists h. split; [done|]. by apply H. Qed.
Lemma avail_emp : avail emp%I.
Proof. intros hf. exists ∅. split; [apply map_disjoint_empty_l|done]. Qed.
Lemma avail_pure (φ : Prop) : φ → avail (<affine> ⌜φ⌝)%I.
Proof. intros H. eapply avail_mono; [|exact avail_emp]. iIntros "_". done. Qed.
Lemma avail_sep P Q : avail P → avail Q → avail (P ∗ Q)%I.
Proof.
  intros HP HQ hf. destruct (HP hf) as (h1 & Hd1 & H1). destruct (HQ (h1 ∪ hf)) as (h2 & Hd2 & H2).
  exists (h1 ∪ h2). split; [solve_map_disjoint|]. apply sep_intro; [solve_map_disjoint|done|done].
Qed.
Lemma avail_cell b : avail (∃ p, p ↦ CBlock b)%I.
Proof.
  intros hf. destruct (@pick_ok obj (bump_allocator obj) hf) as [Hp Hn]. set (p := @pick obj (bump_allocator obj) hf) in *.
  exists {[p := CBlock b]}. split; [by apply map_disjoint_singleton_l_2|]. exists p. by split.
Qed.
(** A block that refers to other pieces. *)
Lemma avail_block {A} (b : A → block) (R : A → oprop) : avail (∃ x, R x)%I → avail (∃ p x, p ↦ CBlock (b x) ∗ R x)%I.
Proof.
  intros HR hf. destruct (HR hf) as (h2 & Hd2 & x & H2). destruct (avail_cell (b x) (h2 ∪ hf)) as (h1 & Hd1 & p & H1).
  exists (h1 ∪ h2). split; [solve_map_disjoint|]. exists p, x. apply sep_intro; [solve_map_disjoint|done|done].
Qed.
Lemma avail_pair {A B} (P : A → oprop) (Q : B → oprop) : avail (∃ x, P x)%I → avail (∃ y, Q y)%I → avail (∃ z : A * B, P z.1 ∗ Q z.2)%I.
Proof.
  intros HP HQ. eapply avail_mono; [|exact (avail_sep _ _ HP HQ)]. iIntros "[[%x P] [%y Q]]". iExists (x, y). cbn. iFrame.
Qed.

Lemma avail_str s : avail (∃ p, M (m_str p s))%I.
Proof.
  destruct s as [s|]; cbn.
  - eapply avail_mono; [|exact (avail_cell (BStr s))]. iIntros "[%p P]". iExists p. by rewrite M_cell.
  - eapply avail_mono; [|exact avail_emp]. iIntros "_". iExists NULL. done.
Qed.
Lemma avail_strs l : avail (∃ ps, M (m_strs ps l))%I.
Proof.
  induction l as [|s l IH].
  - eapply avail_mono; [|exact avail_emp]. iIntros "_". iExists []. done.
  - eapply avail_mono; [|exact (avail_pair _ _ (avail_str s) IH)]. iIntros "[%z [P Q]]". iExists (z.1 :: z.2). cbn [m_strs]. rewrite M_beside. iFrame.
Qed.
Lemma avail_ints l : avail (∃ p, M (m_ints p l))%I.
Proof.
  eapply avail_mono; [|exact (avail_cell (BInts (map Some l)))]. iIntros "[%p P]". iExists p. by iApply m_ints_block.
Qed.
Lemma avail_table l : avail (∃ z, M (m_table z.1 z.2 l))%I.
Proof.
  eapply avail_mono; [|exact (avail_block (λ ps, BPtrs (map Some ps)) _ (avail_strs l))]. iIntros "(%p & %ps & P & R)". iExists (p, ps).
  unfold m_table. iDestruct (isnull_false with "P") as "[%E P]". cbn. unfold isnull in E. rewrite E. rewrite M_beside M_cell. iFrame.
Qed.
Lemma avail_strings x : avail (∃ p, M (m_strings p x))%I.
Proof.
  destruct x as [[l|]|]; cbn [m_strings].
  - eapply avail_mono; [|exact (avail_block (λ a, BStrings a) _ (avail_block (λ ps, BPtrs (map Some (ps ++ [NULL]))) _ (avail_strs (map Some l))))].
    iIntros "(%p & %a & P & %ps & A & R)". iExists p, (a, ps). rewrite !M_beside !M_cell. iFrame.
  - eapply avail_mono; [|exact (avail_cell (BStrings NULL))]. iIntros "[%p P]". iExists p. by rewrite M_cell.
  - eapply avail_mono; [|exact avail_emp]. iIntros "_". iExists NULL. done.
Qed.
Lemma avail_body x : avail (∃ p, M (m_body p x))%I.
Proof.
  destruct x as [x|]; cbn [m_body].
  - eapply avail_mono; [|exact (avail_block (λ z : ptr * ptr, BBody z.1 z.2) _ (avail_pair _ _ (avail_strings (bo_iterators x)) (avail_strings (bo_expression x))))].
    iIntros "(%p & %z & P & I & E)". destruct z as [i e]. iExists p, (i, e). rewrite !M_beside !M_cell. iFrame.
  - eapply avail_mono; [|exact avail_emp]. iIntros "_". iExists NULL. done.
Qed.
Lemma avail_extbody x : avail (∃ p, M (m_extbody p x))%I.
Proof.
  eapply avail_mono; [|exact (avail_block (λ z : ptr * (ptr * ptr), BExtbody (Z.of_nat (List.length (eb_access x))) z.1 z.2.1 z.2.2) _
    (avail_pair _ _ (avail_ints (map fst (eb_access x))) (avail_pair _ _ (avail_ints (map snd (eb_access x))) (avail_body (eb_body x)))))].
  iIntros "(%p & %z & P & I & E & B)". destruct z as [s [l b]]. iExists p, (s, l, b). rewrite !M_beside !M_cell. iFrame.
Qed.
Lemma avail_arrays x : avail (∃ p, M (m_arrays p x))%I.
Proof.
  eapply avail_mono; [|exact (avail_block (λ z : ptr * (ptr * list ptr), BArrays (Z.of_nat (List.length x)) z.1 z.2.1) _
    (avail_pair _ _ (avail_ints (map fst x)) (avail_table (map (λ e, Some (snd e)) x))))].
  iIntros "(%p & %z & P & I & E)". destruct z as [i [n ps]]. iExists p, (i, n, ps). rewrite !M_beside !M_cell. iFrame.
Qed.
Lemma avail_comment x : avail (∃ p, M (m_comment p x))%I.
Proof.
  eapply avail_mono; [|exact (avail_block (λ t, BHolder t) _ (avail_str x))].
  iIntros "(%p & %t & P & I)". iExists p, t. rewrite !M_beside !M_cell. iFrame.
Qed.
Lemma avail_scatnames (x : scatnames) : avail (∃ p, M (m_scatnames p x))%I.
Proof.
  eapply avail_mono; [|exact (avail_block (λ t, BScatnames t) _ (avail_strings x))].
  iIntros "(%p & %t & P & I)". iExists p, t. rewrite !M_beside !M_cell. iFrame.
Qed.
Lemma avail_coordinates x : avail (∃ p, M (m_coordinates p x))%I.
Proof.
  eapply avail_mono; [|exact (avail_block (λ n, BCoordinates n (co_line_start x) (co_line_end x) (co_column_start x) (co_column_end x) (co_indent x)) _ (avail_str (co_name x)))].
  iIntros "(%p & %t & P & I)". iExists p, t. rewrite !M_beside !M_cell. iFrame.
Qed.
Lemma avail_scatinfos x : avail (∃ p, M (m_scatinfos p x))%I.
Proof.
  eapply avail_mono; [|exact (avail_block (λ z : ptr * (ptr * ptr), BScatinfos (Z.of_nat (List.length x)) z.1 z.2.1 z.2.2) _
    (avail_pair _ _ (avail_ints (map si_parallel x)) (avail_pair _ _ (avail_ints (map si_permutable x)) (avail_ints (map si_type x)))))].
  iIntros "(%p & %z & P & I & E & B)". destruct z as [s [l b]]. iExists p, (s, l, b). rewrite !M_beside !M_cell. iFrame.
Qed.
Lemma avail_text x : avail (∃ z, M (m_text z.1 z.2 x))%I.
Proof.
  eapply avail_mono; [|exact (avail_pair _ _ (avail_ints (map fst x)) (avail_table (map snd x)))].
  iIntros "(%z & I & T)". destruct z as [i [n ps]]. iExists (Text (Z.of_nat (List.length x)) i n, ps). unfold m_text. cbn. rewrite !M_beside. iFrame. done.
Qed.
Lemma avail_annotation x : avail (∃ p, M (m_annotation p x))%I.
Proof.
  eapply avail_mono; [|exact (avail_block (λ z : (textrec * list ptr) * (textrec * list ptr), BAnnotation z.1.1 z.2.1) _ (avail_pair _ _ (avail_text (an_prefix x)) (avail_text (an_suffix x))))].
  iIntros "(%p & %z & P & I & T)". destruct z as [[t ps] [u qs]]. iExists p, (t, u, ps, qs). rewrite !M_beside !M_cell. iFrame.
Qed.
Lemma avail_regions l : avail (∃ p, M (m_regions p l))%I.
Proof.
  induction l as [|x l IH]; cbn [m_regions].
  - eapply avail_mono; [|exact avail_emp]. iIntros "_". iExists NULL. done.
  - eapply avail_mono; [|exact (avail_block (λ z : ((textrec * list ptr) * ((textrec * list ptr) * ((textrec * list ptr) * (textrec * list ptr)))) * ptr,
        BRegion (re_location x) z.1.1.1 z.1.2.1.1 z.1.2.2.1.1 z.1.2.2.2.1 z.2) _
      (avail_pair _ _ (avail_pair _ _ (avail_text (re_prefix x)) (avail_pair _ _ (avail_text (re_suffix x)) (avail_pair _ _ (avail_text (re_prelude x)) (avail_text (re_postlude x))))) IH))].
    iIntros "(%p & %z & P & (A & B & C & D) & R)". destruct z as [[[t ps] [[u qs] [[v rs] [w ss]]]] n].
    iExists p, (t, u, v, w, ps, qs, rs, ss, n). rewrite !M_beside !M_cell. iFrame.
Qed.
Lemma avail_loops l : avail (∃ p, M (m_loops p l))%I.
Proof.
  induction l as [|x l IH]; cbn [m_loops].
  - eapply avail_mono; [|exact avail_emp]. iIntros "_". iExists NULL. done.
  - eapply avail_mono; [|exact (avail_block (λ z : (ptr * (ptr * (ptr * ptr))) * ptr,
        BLoop z.1.1 (Z.of_nat (List.length (lo_stmts x))) z.1.2.1 z.1.2.2.1 (lo_directive x) z.1.2.2.2 z.2) _
      (avail_pair _ _ (avail_pair _ _ (avail_str (lo_iter x)) (avail_pair _ _ (avail_ints (lo_stmts x)) (avail_pair _ _ (avail_str (lo_private x)) (avail_str (lo_user x))))) IH))].
    iIntros "(%p & %z & P & (A & B & C & D) & R)". destruct z as [[i [s [pv u]]] n].
    iExists p, (i, s, pv, u, n). rewrite !M_beside !M_cell. iFrame.
Qed.
Lemma avail_unrolls l : avail (∃ p, M (m_unrolls p l))%I.
Proof.
  induction l as [|x l IH]; cbn [m_unrolls].
  - eapply avail_mono; [|exact avail_emp]. iIntros "_". iExists NULL. done.
  - eapply avail_mono; [|exact (avail_block (λ z : ptr * ptr, BUnroll z.1 (un_jam x) (un_factor x) z.2) _ (avail_pair _ _ (avail_str (un_iter x)) IH))].
    iIntros "(%p & %z & P & A & R)". destruct z as [i n]. iExists p, (i, n). rewrite !M_beside !M_cell. iFrame.
Qed.
Lemma avail_obj {A} (b : A → obj) (R : A → oprop) : avail (∃ x, R x)%I → avail (∃ p x, p ↦ b x ∗ R x)%I.
Proof.
  intros HR hf. destruct (HR hf) as (h2 & Hd2 & x & H2).
  destruct (@pick_ok obj (bump_allocator obj) (h2 ∪ hf)) as [Hp Hn]. set (p := @pick obj (bump_allocator obj) (h2 ∪ hf)) in *.
  assert (({[p := b x]} : heap obj) ##ₘ (h2 ∪ hf)) as Hd1 by (by apply map_disjoint_singleton_l_2).
  exists ({[p := b x]} ∪ h2). split; [solve_map_disjoint|]. exists p, x. apply sep_intro; [solve_map_disjoint| |done]. by split.
Qed.

Lemma avail_unit : avail (∃ _ : unit, emp)%I.
Proof. eapply avail_mono; [|exact avail_emp]. iIntros "_". by iExists tt. Qed.
Lemma avail_matrix r : ((nrows r = 0 ∨ ncols r = 0) → rm r = [])%type → avail (∃ m, mat_at m r)%I.
Proof.
  intros H. unfold mat_at. destruct ((nrows r =? 0) || (ncols r =? 0)) eqn:E.
  - eapply avail_mono; [|exact avail_emp]. iIntros "_". iExists NULL. iPureIntro. split; [done|]. apply H. lia.
  - eapply avail_mono; [|exact (avail_obj (λ _ : unit, CMat (rm r)) (λ _, emp)%I avail_unit)].
    iIntros "(%m & %u & P & _)". by iExists m.
Qed.
Lemma avail_union u : Forall (λ r, (nrows r = 0 ∨ ncols r = 0) → rm r = [])%type u → avail (∃ p, runion p u)%I.
Proof.
  induction 1 as [|r u Hr Hu IH]; cbn [runion].
  - eapply avail_mono; [|exact avail_emp]. iIntros "_". iExists NULL. done.
  - eapply avail_mono; [|exact (avail_obj (λ z : ptr * ptr, CRel (header r) z.1 z.2) _ (avail_pair _ _ (avail_matrix r Hr) IH))].
    iIntros "(%p & %z & P & A & R)". iExists p, z.1, z.2. iFrame.
Qed.
Lemma avail_dependences l : Forall (λ d, Forall (λ r, (nrows r = 0 ∨ ncols r = 0) → rm r = [])%type (de_domain d)) l → avail (∃ p, M (m_dependences p l))%I.
Proof.
  induction 1 as [|x l Hx Hl IH]; cbn [m_dependences].
  - eapply avail_mono; [|exact avail_emp]. iIntros "_". iExists NULL. done.
  - eapply avail_mono; [|exact (avail_block (λ z : ptr * ptr, BDependence (dependence_ints x) z.1 z.2) _ (avail_pair _ _ (avail_union _ Hx) IH))].
    iIntros "(%p & %z & P & A & R)". destruct z as [d n]. iExists p, (d, n). rewrite !M_beside !M_cell. iFrame "P R". cbn. by rewrite M_union.
Qed.
Lemma avail_null : avail (∃ p, M (m_null p))%I.
Proof. eapply avail_mono; [|exact (avail_cell BNull)]. iIntros "[%p P]". iExists p. unfold m_null. by rewrite M_cell. Qed.
Lemma avail_vector v : vsize v = Z.of_nat (List.length (vv v)) → avail (∃ p, M (m_vector p v))%I.
Proof.
  intros H. destruct (vv v) as [|x l] eqn:E.
  - eapply avail_mono; [|exact (avail_cell (BVector (vsize v) (vprec v) NULL))]. iIntros "[%p P]". iExists p. rewrite M_vector. iExists NULL. iFrame "P".
    rewrite E. unfold m_ints. cbn. iPureIntro. done.
  - eapply avail_mono; [|exact (avail_block (λ a, BVector (vsize v) (vprec v) a) (λ a, a ↦ CBlock (BInts (map Some (vv v))))%I (avail_cell _))].
    iIntros "(%p & %a & P & A)". iExists p. rewrite M_vector. iExists a. iFrame "P". iDestruct (isnull_false with "A") as "[%Ea A]".
    iSplitL "A". { by iApply m_ints_block. } iPureIntro. rewrite E. split; [done|]. split; [intros ->; done|done].
Qed.
(** What it means for plain memories. *)
Lemma avail_out (m : ptr → mem) : avail (∃ p, M (m p))%I → (∀ hf, ∃ h p, h ##ₘ hf ∧ m p h)%type.
Proof. intros H hf. destruct (H hf) as (h & Hd & p & Hp%M_holds). by exists h, p. Qed.
