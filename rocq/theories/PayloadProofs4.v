(** * PayloadProofs4: the other extensions with a fixed shape, vectors *)
From stdpp Require Import gmap.
From iris.proofmode Require Import tactics.
From Coq Require Import ZifyBool ZifyNat.
From Verif Require Import Base IntModel VectorModel RelationModel RelSpec StringsModel ExtModel HeapModel HeapObjects HeapSpec HeapLogic HeapProofs PayloadModel PayloadSpec PayloadProofs PayloadProofs2 PayloadProofs3.
Local Open Scope string_scope.
Local Open Scope list_scope.
Local Open Scope Z_scope.
Local Open Scope bi_scope.

Section R.
Context {cfg : config} {al : Allocator obj}.

(** ** Tables of arrays *)
Lemma m_table_block m ps l : m ↦ CBlock (BPtrs (map Some ps)) ∗ M (m_strs ps l) ⊢ M (m_table m ps l).
Proof.
  iIntros "[A S]". iDestruct (isnull_false with "A") as "[%E A]". unfold m_table. unfold isnull in E. rewrite E. iSplitL "A"; done.
Qed.
Lemma sees_table h m ps l i s : sees h (m_table m ps l) → l !! i = Some s →
  (∃ p, h !! m = Some (CBlock (BPtrs (map Some ps))) ∧ ps !! i = Some p ∧ sees h (m_str p s))%type.
Proof.
  unfold m_table. intros [H1 H2]%sees_beside Hi. destruct (sees_strs _ _ _ _ _ H2 Hi) as (p & Hp & Hs). exists p. split; [|done].
  destruct (m =? NULL).
  - apply sees_nothing in H1. by rewrite H1 in Hp.
  - by apply sees_cell in H1 as [? _].
Qed.
Lemma wp_arrays_clone h p x (Q : _ → oprop) : sees h (m_arrays p x) →
  own h ∗ (∀ q, own h -∗ M (m_arrays q x) -∗ Q q) ⊢ wp (osl_arrays_clone_p p) Q.
Proof.
  unfold osl_arrays_clone_p, m_arrays. intros Hs. apply sees_somewhere in Hs as [[[i m] ps] Hs]. apply sees_beside in Hs as [[Hp Hn]%sees_cell Hs].
  apply sees_beside in Hs as [Hi Hm]. rewrite (null_ne p Hn). iIntros "[H K]".
  iApply wp_bind. iApply wp_malloc. iIntros (q) "N". getown Hp. rewrite Nat2Z.id.
  set (l := map (λ e, Some (snd e)) x) in *. set (ids := map fst x) in *.
  assert (List.length x = List.length ids) as E1 by (by unfold ids; rewrite map_length).
  assert (List.length x = List.length l) as E2 by (by unfold l; rewrite map_length).
  iApply wp_bind. iApply wp_malloc. iIntros (i') "I". iApply wp_bind. iApply wp_malloc. iIntros (m') "T". putp "N". iApply wp_bind.
  iApply (wp_pfor0 (λ j, own h ∗ i' ↦ CBlock (BInts (fill ids j)) ∗
    ∃ qs, <affine> ⌜List.length qs = j⌝ ∗ m' ↦ CBlock (BPtrs (map Some qs ++ repeat None (List.length x - j))) ∗ M (m_strs qs (firstn j l)))%I).
  - intros j Hj. iIntros "(H & I & %qs & %Hq & T & S)". subst j. destruct (lookup_ex ids (List.length qs)) as [z Hz]; [lia|].
    destruct (lookup_ex l (List.length qs)) as [s Hl]; [lia|]. destruct (sees_table _ _ _ _ _ _ Hm Hl) as (y & Ht & Hy & Hys).
    iApply wp_bind. iApply wp_read_int; [done..|]. iFrame "H". iIntros "H". iApply wp_bind. iApply wp_fill_int; [done|]. iFrame "I". iIntros "I".
    iApply wp_bind. iApply wp_ptr_at_own; [done|by apply map_Some_lookup|]. iFrame "H". iIntros "H".
    iApply wp_bind. iApply wp_OSL_strdup; [done|]. iFrame "H". iIntros (w) "H W".
    replace (List.length x - List.length qs)%nat with (S (List.length x - S (List.length qs))) by lia. cbn [repeat].
    iApply wp_push_ptr. iFrame "T". iIntros "T". iFrame "H I". iExists (qs ++ [w]). rewrite app_length. iSplitR; [iPureIntro; cbn; lia|].
    iFrame "T". rewrite (take_S_r l _ s Hl). iApply m_strs_snoc. iFrame.
  - iFrame "H". rewrite -!m_ints_new; [|done]. iFrame "I". iSplitL "T". { iExists []. rewrite Nat.sub_0_r. iFrame "T". done. }
    iIntros "(H & I & %qs & %Hq & T & S)". rewrite Nat.sub_diag app_nil_r m_ints_full; [|done]. rewrite E2 firstn_all. iApply wp_ret. iApply ("K" with "H").
    iExists (i', m', qs). iSplitL "N"; [done|]. iSplitL "I"; [done|]. iApply m_table_block. iFrame.
Qed.
Lemma grow_table (ps : list ptr) y : <[List.length ps := Some y]> (resize (map Some ps) (List.length ps + 1)) = map Some (ps ++ [y]).
Proof.
  rewrite resize_more; [|rewrite map_length; lia]. rewrite map_length.
  replace (List.length ps + 1 - _)%nat with 1%nat by lia. rewrite insert_app_r_alt; [|rewrite map_length; lia].
  rewrite map_length Nat.sub_diag map_app. done.
Qed.
Lemma wp_grow_table a ps l n (Q : _ → oprop) : n = List.length l →
  M (m_table a ps l) ∗ (∀ b, b ↦ CBlock (BPtrs (resize (map Some ps) (n + 1))) -∗ M (m_strs ps l) -∗ <affine> ⌜List.length ps = n⌝ -∗ Q b) ⊢ wp (realloc_ptrs a (n + 1)) Q.
Proof.
  intros ->. unfold m_table, realloc_ptrs, isnull. iIntros "[[A S] K]". iDestruct (m_strs_length with "S") as "[%E S]". destruct (a =? NULL).
  - iDestruct "A" as %->. destruct l; [|done]. cbn. iApply wp_malloc. iIntros (b) "B". by iApply ("K" with "B S").
  - rewrite M_cell. iApply (wp_bind (get_ptrs a)). iApply wp_bind. iApply wp_get_block. iFrame "A". iIntros "A". iApply wp_ret.
    iApply wp_bind. iApply wp_free. iFrame "A". iApply wp_malloc. iIntros (b) "B". by iApply ("K" with "B S").
Qed.
Lemma wp_push_table a ps l n y s (Q : _ → oprop) : List.length ps = n →
  a ↦ CBlock (BPtrs (resize (map Some ps) (n + 1))) ∗ M (m_strs ps l) ∗ M (m_str y s) ∗ (M (m_table a (ps ++ [y]) (l ++ [s])) -∗ Q tt) ⊢ wp (set_ptr a n y) Q.
Proof.
  intros <-. iIntros "(A & S & Y & K)". iApply (wp_set_ptr a (resize (map Some ps) (List.length ps + 1))).
  { rewrite resize_more; rewrite ?app_length ?map_length ?repeat_length; lia. }
  iFrame "A". iIntros "A". iApply "K". rewrite grow_table. iApply m_table_block. iFrame "A". iApply m_strs_snoc. iFrame.
Qed.
Lemma wp_arrays_add h p x id name s (Q : _ → oprop) : sees h (m_str name (Some s)) →
  own h ∗ M (m_arrays p x) ∗ (own h -∗ M (m_arrays p (x ++ [(id, s)])) -∗ Q (Z.of_nat (List.length x) + 1)) ⊢ wp (osl_arrays_add_p p id name) Q.
Proof.
  intros Hs. pose proof (sees_cell _ _ _ Hs) as [_ Hn]. unfold osl_arrays_add_p, m_arrays. iIntros "(H & (%w & S) & K)". destruct w as [[i m] ps].
  iDestruct "S" as "(P & I & T)". rewrite M_cell. iDestruct (isnull_false with "P") as "[%Ep P]". rewrite Ep (null_ne name Hn). cbn [orb]. get "P".
  replace (Z.to_nat (Z.of_nat (List.length x) + 1)) with (List.length x + 1)%nat by lia. rewrite Nat2Z.id.
  set (l := map (λ e, Some (snd e)) x) in *. set (ids := map fst x) in *.
  assert (List.length x = List.length ids) as E1 by (by unfold ids; rewrite map_length).
  assert (List.length x = List.length l) as E2 by (by unfold l; rewrite map_length).
  iApply wp_bind. iApply (wp_grow_ints _ _ _ _ E1). iFrame "I". iIntros (i') "I". putp "P".
  iApply wp_bind. iApply (wp_grow_table _ _ _ _ _ E2). iFrame "T". iIntros (m') "T S %HL". putp "P".
  iApply wp_bind. iApply (wp_push_int _ _ _ _ _ E1). iFrame "I". iIntros "I".
  iApply wp_bind. iApply wp_OSL_strdup; [done|]. iFrame "H". iIntros (y) "H Y".
  iApply wp_bind. iApply (wp_push_table _ _ _ _ _ _ _ HL). iFrame "T S Y". iIntros "T". putp "P". iApply wp_ret. iApply ("K" with "H").
  iExists (i', m', ps ++ [y]). rewrite !map_app app_length. cbn [map fst snd List.length].
  replace (Z.of_nat (List.length x) + 1) with (Z.of_nat (List.length x + 1)) by lia.
  iSplitL "P"; [done|]. iSplitL "I"; done.
Qed.

(** ** Comments, clay scripts, texts *)
Lemma wp_comment_free p x (Q : _ → oprop) : M (m_comment p x) ∗ Q tt ⊢ wp (osl_comment_free_p p) Q.
Proof.
  unfold osl_comment_free_p, m_comment. iIntros "[(%t & P & T) K]". rewrite M_cell. iDestruct (isnull_false with "P") as "[%Ep P]". rewrite Ep. get "P".
  iApply wp_bind. iApply wp_free_if_str. iFrame "T". iApply wp_free. iFrame.
Qed.
Lemma wp_comment_clone h p x (Q : _ → oprop) : sees h (m_comment p x) →
  own h ∗ (∀ q, own h -∗ M (m_comment q x) -∗ Q q) ⊢ wp (osl_comment_clone_p p) Q.
Proof.
  unfold osl_comment_clone_p, m_comment. intros Hs. apply sees_somewhere in Hs as [t Hs]. apply sees_beside in Hs as [[Hp Hn]%sees_cell Hs].
  rewrite (null_ne p Hn). iIntros "[H K]". iApply wp_bind. iApply wp_malloc. iIntros (q) "N". getown Hp.
  iApply wp_bind. iApply wp_OSL_strdup; [done|]. iFrame "H". iIntros (t') "H T". putp "N". iApply wp_ret. iApply ("K" with "H"). iExists t'. iSplitL "N"; done.
Qed.

(** ** Scattering names *)
Lemma wp_scatnames_free p x (Q : _ → oprop) : M (m_scatnames p x) ∗ Q tt ⊢ wp (osl_scatnames_free_p p) Q.
Proof.
  unfold osl_scatnames_free_p, m_scatnames. iIntros "[(%t & P & T) K]". rewrite M_cell. iDestruct (isnull_false with "P") as "[%Ep P]". rewrite Ep. get "P".
  iApply wp_bind. iApply wp_strings_free. iFrame "T". iApply wp_free. iFrame.
Qed.
Lemma wp_scatnames_clone h p (x : scatnames) (Q : _ → oprop) : sees h (m_scatnames p x) →
  own h ∗ (∀ q, own h -∗ M (m_scatnames q (osl_strings_clone x)) -∗ Q q) ⊢ wp (osl_scatnames_clone_p p) Q.
Proof.
  unfold osl_scatnames_clone_p, m_scatnames. intros Hs. apply sees_somewhere in Hs as [t Hs]. apply sees_beside in Hs as [[Hp Hn]%sees_cell Hs].
  rewrite (null_ne p Hn). iIntros "[H K]". iApply wp_bind. iApply wp_malloc. iIntros (q) "N". getown Hp.
  iApply wp_bind. iApply wp_strings_clone; [done|]. iFrame "H". iIntros (t') "H T". putp "N". iApply wp_ret. iApply ("K" with "H"). iExists t'. iSplitL "N"; done.
Qed.

(** ** Coordinates *)
Lemma wp_coordinates_free p x (Q : _ → oprop) : M (m_coordinates p x) ∗ Q tt ⊢ wp (osl_coordinates_free_p p) Q.
Proof.
  unfold osl_coordinates_free_p, m_coordinates. iIntros "[(%t & P & T) K]". rewrite M_cell. iDestruct (isnull_false with "P") as "[%Ep P]". rewrite Ep. get "P".
  iApply wp_bind. iApply wp_free_str. iFrame "T". iApply wp_free. iFrame.
Qed.
Lemma wp_coordinates_clone h p x (Q : _ → oprop) : sees h (m_coordinates p x) →
  own h ∗ (∀ q, own h -∗ M (m_coordinates q x) -∗ Q q) ⊢ wp (osl_coordinates_clone_p p) Q.
Proof.
  unfold osl_coordinates_clone_p, m_coordinates. intros Hs. apply sees_somewhere in Hs as [t Hs]. apply sees_beside in Hs as [[Hp Hn]%sees_cell Hs].
  rewrite (null_ne p Hn). iIntros "[H K]". iApply wp_bind. iApply wp_malloc. iIntros (q) "N". getown Hp.
  iApply wp_bind. iApply wp_OSL_strdup; [done|]. iFrame "H". iIntros (t') "H T". putp "N". iApply wp_ret. iApply ("K" with "H"). iExists t'. iSplitL "N"; done.
Qed.

(** ** Scattering dimension information *)
Lemma wp_copy_n h a l n a' (Q : _ → oprop) : sees h (m_ints a l) → n = List.length l →
  own h ∗ a' ↦ CBlock (BInts (repeat None n)) ∗ (own h -∗ M (m_ints a' l) -∗ Q tt)
  ⊢ wp (pfor n 0 (λ i, x <== int_at a i ;; set_int a' i x)) Q.
Proof. intros H ->. by apply wp_copy_ints. Qed.
Lemma wp_scatinfos_free p x (Q : _ → oprop) : M (m_scatinfos p x) ∗ Q tt ⊢ wp (osl_scatinfos_free_p p) Q.
Proof.
  unfold osl_scatinfos_free_p, m_scatinfos. iIntros "[(%w & S) K]". destruct w as [[a b] c]. iDestruct "S" as "(P & A & B & C)". rewrite M_cell.
  iDestruct (isnull_false with "P") as "[%Ep P]". rewrite Ep. get "P". iApply wp_bind. iApply wp_free_if_ints. iFrame "A".
  iApply wp_bind. iApply wp_free_if_ints. iFrame "B". iApply wp_bind. iApply wp_free_if_ints. iFrame "C". iApply wp_free. iFrame.
Qed.
Lemma wp_scatinfos_clone h p x (Q : _ → oprop) : sees h (m_scatinfos p x) →
  own h ∗ (∀ q, own h -∗ M (m_scatinfos q x) -∗ Q q) ⊢ wp (osl_scatinfos_clone_p p) Q.
Proof.
  unfold osl_scatinfos_clone_p, m_scatinfos. intros Hs. apply sees_somewhere in Hs as [[[a b] c] Hs]. apply sees_beside in Hs as [[Hp Hn]%sees_cell Hs].
  apply sees_beside in Hs as [Ha Hs]. apply sees_beside in Hs as [Hb Hc]. rewrite (null_ne p Hn). iIntros "[H K]".
  iApply wp_bind. iApply wp_malloc. iIntros (q) "N". getown Hp. rewrite Nat2Z.id. putp "N".
  iApply wp_bind. iApply wp_malloc. iIntros (a') "A". putp "N". iApply wp_bind. iApply (wp_copy_n _ _ (map si_parallel x)); [exact Ha|by rewrite map_length|].
  iFrame "H A". iIntros "H A".
  iApply wp_bind. iApply wp_malloc. iIntros (b') "B". putp "N". iApply wp_bind. iApply (wp_copy_n _ _ (map si_permutable x)); [exact Hb|by rewrite map_length|].
  iFrame "H B". iIntros "H B".
  iApply wp_bind. iApply wp_malloc. iIntros (c') "C". putp "N". iApply wp_bind. iApply (wp_copy_n _ _ (map si_type x)); [exact Hc|by rewrite map_length|].
  iFrame "H C". iIntros "H C". iApply wp_ret. iApply ("K" with "H"). iExists (a', b', c'). iSplitL "N"; [done|]. iSplitL "A"; [done|]. iSplitL "B"; done.
Qed.

(** ** Null *)
Lemma wp_null_free p (Q : _ → oprop) : M (m_null p) ∗ Q tt ⊢ wp (osl_null_free_p p) Q.
Proof. unfold osl_null_free_p, m_null. rewrite M_cell. iIntros "[P K]". iDestruct (isnull_false with "P") as "[%Ep P]". rewrite Ep. iApply wp_free. iFrame. Qed.
Lemma wp_null_clone h p (Q : _ → oprop) : sees h (m_null p) → own h ∗ (∀ q, own h -∗ M (m_null q) -∗ Q q) ⊢ wp (osl_null_clone_p p) Q.
Proof.
  unfold osl_null_clone_p. intros [Hp Hn]%sees_cell. rewrite (null_ne p Hn). iIntros "[H K]". iApply wp_malloc. iIntros (q) "N". iApply ("K" with "H N").
Qed.
End R.
