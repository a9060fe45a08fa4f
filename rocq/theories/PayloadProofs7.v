(** * PayloadProofs7: vectors; from the logic to plain memories *)
From stdpp Require Import gmap.
From iris.proofmode Require Import tactics.
From Coq Require Import ZifyBool ZifyNat.
From Verif Require Import Base IntModel VectorModel RelationModel RelSpec StringsModel ExtModel HeapModel HeapObjects HeapSpec HeapLogic HeapProofs PayloadModel PayloadSpec PayloadProofs PayloadProofs2 PayloadProofs3 PayloadProofs4 PayloadProofs5 PayloadProofs6 PropHeap.
Local Open Scope string_scope.
Local Open Scope list_scope.
Local Open Scope Z_scope.
Local Open Scope bi_scope.

Definition m_vector (p : ptr) (v : vector) : mem := λ h, stores_vector h p v.
Lemma M_vector p v : M (m_vector p v) ⊣⊢ ∃ a, p ↦ CBlock (BVector (vsize v) (vprec v) a) ∗ M (m_ints a (vv v)) ∗
  <affine> ⌜vsize v = Z.of_nat (List.length (vv v)) ∧ (a = NULL ↔ vv v = [])⌝.
Proof.
  change (m_vector p v) with (somewhere (λ a, cell p (BVector (vsize v) (vprec v) a) ⋆ m_ints a (vv v) ⋆
                  nothing (vsize v = Z.of_nat (List.length (vv v)) ∧ (a = NULL ↔ vv v = [])))%type).
  rewrite M_somewhere. apply bi.exist_proper. intros a. by rewrite !M_beside M_cell M_nothing.
Qed.
Lemma sees_vector h p v : sees h (m_vector p v) → (∃ a, h !! p = Some (CBlock (BVector (vsize v) (vprec v) a)) ∧ p ≠ NULL ∧ sees h (m_ints a (vv v)) ∧
  vsize v = Z.of_nat (List.length (vv v)))%type.
Proof.
  intros H. apply (sees_somewhere h (λ a, cell p (BVector (vsize v) (vprec v) a) ⋆ m_ints a (vv v) ⋆
                  nothing (vsize v = Z.of_nat (List.length (vv v)) ∧ (a = NULL ↔ vv v = [])))%type) in H as [a H].
  apply sees_beside in H as [[Ha Hb]%sees_cell H]. apply sees_beside in H as [Hc [Hd _]%sees_nothing]. by exists a.
Qed.

Lemma repeat_lookup {A} (x : A) n : ∀ i, (i < n)%nat → repeat x n !! i = Some x.
Proof. induction n as [|n IH]; intros [|i] H; try lia; cbn; [done|]. apply IH. lia. Qed.
Lemma map_Some_repeat (x : Z) n : map Some (repeat x n) = repeat (Some x) n.
Proof. induction n; cbn; by rewrite ?IHn. Qed.
Section R.
Context {cfg : config} {al : Allocator obj}.

Lemma wp_vector_pmalloc prec n (Q : _ → oprop) : osl_int_init_set_si prec 0 = Ok 0 →
  (∀ q, M (m_vector q (mkvec prec (Z.of_nat n) (repeat 0 n))) -∗ Q q) ⊢ wp (osl_vector_pmalloc_p prec n) Q.
Proof.
  intros H0. iIntros "K". iApply wp_bind. iApply wp_malloc. iIntros (p) "P". destruct n as [|n].
  - cbn [Nat.eqb]. iApply wp_ret. iApply "K". rewrite M_vector. iExists NULL. cbn. iFrame "P". unfold m_ints. cbn. done.
  - cbn [Nat.eqb]. set (m := S n). iApply wp_bind. iApply wp_malloc. iIntros (a) "A". putp "P". iApply wp_bind.
    assert (m = List.length (repeat 0 m)) as Em by (by rewrite repeat_length).
    iApply (wp_pfor0 (λ j, a ↦ CBlock (BInts (fill (repeat 0 m) j)))%I).
    + intros j Hj. iIntros "A". iApply wp_bind. iApply (wp_lift _ 0); [done|]. iApply (wp_fill_int a (repeat 0 m) j 0); [by apply repeat_lookup|]. iFrame "A". by iIntros "A".
    + rewrite -m_ints_new; [|done]. iFrame "A". iIntros "A". iDestruct (isnull_false with "A") as "[%Ea A]". rewrite m_ints_full; [|done]. iApply wp_ret. iApply "K". rewrite M_vector. iExists a.
      cbn [vsize vprec vv]. iFrame "P A". iPureIntro. rewrite repeat_length. split; [done|]. split; [intros ->; done|done].
Qed.
Lemma wp_vector_free p v (Q : _ → oprop) : M (m_vector p v) ∗ Q tt ⊢ wp (osl_vector_free_p p) Q.
Proof.
  unfold osl_vector_free_p. rewrite M_vector. iIntros "[(%a & P & A & %Hn & %Ha) K]". iDestruct (isnull_false with "P") as "[%Ep P]". rewrite Ep. get "P".
  iApply wp_bind. unfold m_ints, isnull. destruct (a =? NULL) eqn:E.
  - iDestruct "A" as %Hv. iApply wp_ret. iApply wp_free. iFrame.
  - rewrite M_cell Hn Nat2Z.id. iApply wp_bind. iApply (wp_pfor0 (λ _, a ↦ CBlock (BInts (map Some (vv v))))%I).
    + intros j Hj. destruct (lookup_ex (vv v) j Hj) as [x Hx]. iIntros "A". iApply wp_bind. iApply wp_int_at; [by apply map_Some_lookup|]. iFrame "A". iIntros "A". by iApply wp_ret.
    + iFrame "A". iIntros "A". iApply wp_free. iFrame "A". iApply wp_free. iFrame.
Qed.
Lemma wp_vector_add h p1 p2 v1 v2 l (Q : _ → oprop) : sees h (m_vector p1 v1) → sees h (m_vector p2 v2) → vsize v1 = vsize v2 → vprec v1 = vprec v2 →
  osl_int_init_set_si (vprec v1) 0 = Ok 0 → List.length l = List.length (vv v1) →
  (∀ i x y z, vv v1 !! i = Some x → vv v2 !! i = Some y → l !! i = Some z → osl_int_add (vprec v1) x y = Ok z) →
  own h ∗ (∀ q, own h -∗ M (m_vector q (mkvec (vprec v1) (vsize v1) l)) -∗ Q q) ⊢ wp (osl_vector_add_p p1 p2) Q.
Proof.
  intros (a1 & H1 & N1 & S1 & L1)%sees_vector (a2 & H2 & N2 & S2 & L2)%sees_vector Es Ep H0 El Hl. unfold osl_vector_add_p.
  rewrite (null_ne p1 N1) (null_ne p2 N2). cbn [orb]. iIntros "[H K]". getown H1. getown H2. rewrite -Es -Ep !Z.eqb_refl. cbn [negb orb].
  rewrite L1 Nat2Z.id. iApply wp_bind. iApply wp_vector_pmalloc; [done|]. iIntros (q) "N". rewrite M_vector. cbn [vsize vprec vv]. iDestruct "N" as (a) "(P & A & %Hn & %Ha)".
  get "P". iApply wp_bind. unfold m_ints. destruct (a =? NULL) eqn:E.
  - iDestruct "A" as %Hv. assert (vv v1 = []) as Hv1. { destruct (vv v1); done. } rewrite ->Hv1 in *. cbn [List.length pfor]. iApply wp_ret. iApply wp_ret. iApply ("K" with "H").
    rewrite M_vector. cbn [vsize vprec vv]. destruct l; [|done]. iExists a. iFrame "P". unfold m_ints. rewrite E. iSplit; [done|]. iPureIntro. split; [done|]. split; intros; [done|lia].
  - rewrite M_cell.
    iApply (wp_pfor0 (λ j, own h ∗ a ↦ CBlock (BInts (map Some (firstn j l) ++ repeat (Some 0) (List.length (vv v1) - j))))%I).
    + intros j Hj. destruct (lookup_ex (vv v1) j Hj) as [x Hx]. destruct (lookup_ex (vv v2) j) as [y Hy]; [lia|]. destruct (lookup_ex l j) as [z Hz]; [lia|].
      iIntros "[H A]". iApply wp_bind. iApply (wp_read_int _ _ _ _ _ _ S1 Hx). iFrame "H". iIntros "H". iApply wp_bind. iApply (wp_read_int _ _ _ _ _ _ S2 Hy). iFrame "H". iIntros "H".
      iApply wp_bind. iApply (wp_lift _ z); [by apply (Hl j)|]. iApply wp_set_int; [|iFrame "A"; iIntros "A"; iFrame "H"].
      { rewrite app_length map_length firstn_length repeat_length. lia. }
      rewrite insert_app_r_alt; [|rewrite map_length firstn_length; lia]. rewrite map_length firstn_length Nat.min_l; [|lia]. rewrite Nat.sub_diag.
      replace (List.length (vv v1) - j)%nat with (S (List.length (vv v1) - S j)) by lia. cbn [repeat]. rewrite (take_S_r l j z Hz) map_app -app_assoc. done.
    + rewrite Nat.sub_0_r. iFrame "H". iSplitL "A". { cbn. by rewrite map_Some_repeat. } iIntros "[H A]". rewrite Nat.sub_diag app_nil_r -El firstn_all. iApply wp_ret. iApply ("K" with "H").
      rewrite M_vector. iExists a. cbn [vsize vprec vv]. rewrite El. iFrame "P". iSplitL "A"; [by iApply m_ints_block|]. iPureIntro. split; [done|].
      split; [lia|]. intros ->. cbn in El. rewrite -El in Ha. cbn in Ha. by apply Ha.
Qed.

(** ** From the logic to plain memories *)
Lemma copies_intro {X} (clone : ptr → oprog ptr) (m : ptr → X → mem) x x' :
  (∀ h p (Q : _ → oprop), sees h (m p x) → own h ∗ (∀ q, own h -∗ M (m q x') -∗ Q q) ⊢ wp (clone p) Q) → copies clone m x x'.
Proof.
  intros H h p Hm. apply (runs_intro (own h) (λ q, own h ∗ M (m q x'))%I); [|done|].
  - iIntros "H". iApply H; [by apply sees_self|]. iFrame "H". iIntros (q) "H N". iFrame.
  - intros q h' (h1 & hc & E & Hd & Ho & Hc%M_holds). cbn in Ho. subst h1 h'. exists hc. split; [apply splits_2; done|done].
Qed.
Lemma releases_intro {X} (free : ptr → oprog unit) (m : ptr → X → mem) x :
  (∀ p (Q : _ → oprop), M (m p x) ∗ Q tt ⊢ wp (free p) Q) → releases free m x.
Proof.
  intros H h p Hm. apply (runs_intro (M (m p x)) (λ _, emp)%I); [|by apply M_holds|].
  - iIntros "H". iApply H. by iFrame.
  - intros _ h' ->. done.
Qed.
End R.
