(** * PayloadProofs: programs on strings, vectors and extension data, tools and first proofs *)
From stdpp Require Import gmap.
From iris.proofmode Require Import tactics.
From Coq Require Import ZifyBool ZifyNat.
From Verif Require Import Base IntModel VectorModel RelationModel RelSpec StringsModel ExtModel HeapModel HeapObjects HeapSpec HeapLogic HeapProofs PayloadModel PayloadSpec.
Local Open Scope string_scope.
Local Open Scope list_scope.
Local Open Scope Z_scope.
Local Open Scope bi_scope.

(** ** Pieces of memory as assertions *)
Definition M (m : mem) : oprop := {| hholds := m |}.
Definition own (h : heap obj) : oprop := {| hholds h' := h' = h |}.
(** [m] holds of a part of [h]. *)
Definition sees (h : heap obj) (m : mem) : Prop := (∃ hs, hs ⊆ h ∧ m hs)%type.

Lemma M_cell p b : M (cell p b) ⊣⊢ p ↦ CBlock b.
Proof. done. Qed.
Lemma M_beside P Q : M (P ⋆ Q) ⊣⊢ M P ∗ M Q.
Proof. done. Qed.
Lemma M_nothing φ : M (nothing φ) ⊣⊢ <affine> ⌜φ⌝.
Proof. done. Qed.
Lemma M_somewhere {A} (P : A → mem) : M (somewhere P) ⊣⊢ ∃ x, M (P x).
Proof. done. Qed.
Lemma M_holds (m : mem) h : M m h ↔ m h.
Proof. done. Qed.
Global Typeclasses Opaque M nothing cell beside somewhere.
Global Opaque M.
Global Instance M_into_sep P Q : IntoSep (M (P ⋆ Q)) (M P) (M Q).
Proof. unfold IntoSep. by rewrite M_beside. Qed.
Global Instance M_from_sep P Q : FromSep (M (P ⋆ Q)) (M P) (M Q).
Proof. unfold FromSep. by rewrite M_beside. Qed.
Global Instance M_into_exist {A} (P : A → mem) name : AsIdentName P name → IntoExist (M (somewhere P)) (λ x, M (P x)) name.
Proof. unfold IntoExist. by rewrite M_somewhere. Qed.
Global Instance M_from_exist {A} (P : A → mem) : FromExist (M (somewhere P)) (λ x, M (P x)).
Proof. unfold FromExist. by rewrite M_somewhere. Qed.
Global Instance M_into_pure φ : IntoPure (M (nothing φ)) φ.
Proof. unfold IntoPure. rewrite M_nothing. by iIntros "%H". Qed.
Global Instance M_from_pure φ : FromPure true (M (nothing φ)) φ.
Proof. unfold FromPure. by rewrite M_nothing. Qed.
Global Instance M_affine φ : Affine (M (nothing φ)).
Proof. unfold Affine. rewrite M_nothing. by iIntros "%H". Qed.
Global Instance M_into_exist_pure φ (Q : mem) : IntoExist (M (nothing φ ⋆ Q)) (λ _ : φ, M Q) (λ x, x).
Proof. unfold IntoExist. rewrite M_beside M_nothing. iIntros "[%H ?]". iExists H. done. Qed.

(** What is seen *)
Lemma sees_mono h h' m : h ⊆ h' → sees h m → sees h' m.
Proof. intros H (hs & ? & ?). exists hs. split; [by etrans|done]. Qed.
Lemma sees_self (h : heap obj) (m : mem) : m h → sees h m.
Proof. intros H. by exists h. Qed.
Lemma sees_cell h p b : sees h (cell p b) → (h !! p = Some (CBlock b) ∧ p ≠ NULL)%type.
Proof. intros (hs & Hs & -> & Hp). split; [|done]. eapply lookup_weaken; [|done]. apply lookup_singleton. Qed.
Lemma sees_beside h P Q : sees h (P ⋆ Q) → (sees h P ∧ sees h Q)%type.
Proof.
  intros (hs & Hs & h1 & h2 & -> & Hd & H1 & H2). split; [exists h1|exists h2]; (split; [|done]).
  - etrans; [|done]. apply map_union_subseteq_l.
  - etrans; [|done]. by apply map_union_subseteq_r.
Qed.
Lemma sees_somewhere {A} h (P : A → mem) : sees h (somewhere P) → (∃ x, sees h (P x))%type.
Proof. intros (hs & Hs & x & H). exists x. by exists hs. Qed.
Lemma sees_nothing h φ : sees h (nothing φ) → φ.
Proof. by intros (hs & Hs & _ & H). Qed.
Lemma own_union h1 h2 : h1 ##ₘ h2 → own (h1 ∪ h2) ⊣⊢ own h1 ∗ own h2.
Proof.
  intros Hd. constructor. intros h. split.
  - intros ->. exists h1, h2. done.
  - intros (a & b & -> & _ & -> & ->). done.
Qed.
(** A part that is seen can be set aside. *)
Lemma sees_take h m : sees h m → (∃ hs, m hs ∧ (own h ⊢ own hs ∗ (own hs -∗ own h)))%type.
Proof.
  intros (hs & Hs & H). exists hs. split; [done|].
  assert (h = hs ∪ (h ∖ hs)) as Hh by (symmetry; by apply map_difference_union).
  assert (hs ##ₘ h ∖ hs) as Hd by (apply map_disjoint_difference_r; done).
  rewrite {1}Hh own_union; [|done]. iIntros "[A B]". iFrame "A". iIntros "A".
  rewrite {2}Hh own_union; [|done]. iFrame.
Qed.
Lemma own_ex h (P : oprop) : P h → own h ⊣⊢ ex h P.
Proof. intros H. constructor. intros h'. split; [by intros ->|by intros [-> _]]. Qed.

(** ** Loads and stores *)
Section R.
Context {cfg : config} {al : Allocator obj}.

Lemma wp_load_own h p v (Q : _ → oprop) : h !! p = Some v → own h ∗ (own h -∗ Q v) ⊢ wp (load p) Q.
Proof.
  intros H. constructor. intros h0 (h1 & h2 & -> & Hd & -> & H2) hf Hf. exists v, (h ∪ h2). split_and!.
  - unfold load. rewrite (lookup_union_Some_l (h ∪ h2) hf p v); [done|]. by apply lookup_union_Some_l.
  - done.
  - rewrite map_union_comm; [|done]. by apply (H2 h).
Qed.
Lemma wp_get_block p b (Q : _ → oprop) : p ↦ CBlock b ∗ (p ↦ CBlock b -∗ Q b) ⊢ wp (get_block p) Q.
Proof. iIntros "[H K]". iApply wp_bind. iApply wp_load. iFrame. iIntros "H". iApply wp_ret. by iApply "K". Qed.
Lemma wp_get_block_own h p b (Q : _ → oprop) : h !! p = Some (CBlock b) → own h ∗ (own h -∗ Q b) ⊢ wp (get_block p) Q.
Proof. iIntros (E) "[H K]". iApply wp_bind. iApply wp_load_own; [done|]. iFrame. iIntros "H". iApply wp_ret. by iApply "K". Qed.
Lemma wp_put p v b (Q : _ → oprop) : p ↦ v ∗ (p ↦ CBlock b -∗ Q tt) ⊢ wp (put p b) Q.
Proof. apply wp_store. Qed.
Lemma wp_malloc b (Q : _ → oprop) : (∀ p, p ↦ CBlock b -∗ Q p) ⊢ wp (malloc b) Q.
Proof. apply wp_alloc. Qed.
Lemma null_ne p : p ≠ NULL → isnull p = false.
Proof. intros H. by apply Z.eqb_neq. Qed.

(** *** Elements of arrays *)
Lemma wp_int_at_own h a l i x (Q : _ → oprop) : h !! a = Some (CBlock (BInts l)) → l !! i = Some (Some x) →
  own h ∗ (own h -∗ Q x) ⊢ wp (int_at a i) Q.
Proof.
  iIntros (E Ei) "[H K]". iApply wp_bind. iApply wp_bind. iApply wp_get_block_own; [done|]. iFrame. iIntros "H".
  iApply wp_ret. rewrite Ei. iApply wp_ret. by iApply "K".
Qed.
Lemma wp_ptr_at_own h a l i x (Q : _ → oprop) : h !! a = Some (CBlock (BPtrs l)) → l !! i = Some (Some x) →
  own h ∗ (own h -∗ Q x) ⊢ wp (ptr_at a i) Q.
Proof.
  iIntros (E Ei) "[H K]". iApply wp_bind. iApply wp_bind. iApply wp_get_block_own; [done|]. iFrame. iIntros "H".
  iApply wp_ret. rewrite Ei. iApply wp_ret. by iApply "K".
Qed.
Lemma wp_int_at a l i x (Q : _ → oprop) : l !! i = Some (Some x) →
  a ↦ CBlock (BInts l) ∗ (a ↦ CBlock (BInts l) -∗ Q x) ⊢ wp (int_at a i) Q.
Proof.
  iIntros (Ei) "[H K]". iApply wp_bind. iApply wp_bind. iApply wp_get_block. iFrame "H". iIntros "H".
  iApply wp_ret. rewrite Ei. iApply wp_ret. by iApply "K".
Qed.
Lemma wp_ptr_at a l i x (Q : _ → oprop) : l !! i = Some (Some x) →
  a ↦ CBlock (BPtrs l) ∗ (a ↦ CBlock (BPtrs l) -∗ Q x) ⊢ wp (ptr_at a i) Q.
Proof.
  iIntros (Ei) "[H K]". iApply wp_bind. iApply wp_bind. iApply wp_get_block. iFrame "H". iIntros "H".
  iApply wp_ret. rewrite Ei. iApply wp_ret. by iApply "K".
Qed.
Lemma wp_set_int a l i x (Q : _ → oprop) : (i < List.length l)%nat →
  a ↦ CBlock (BInts l) ∗ (a ↦ CBlock (BInts (<[i := Some x]> l)) -∗ Q tt) ⊢ wp (set_int a i x) Q.
Proof.
  iIntros (Hi) "[H K]". iApply wp_bind. iApply wp_bind. iApply wp_get_block. iFrame "H". iIntros "H". iApply wp_ret.
  apply Nat.ltb_lt in Hi. rewrite Hi. iApply wp_put. iFrame.
Qed.
Lemma wp_set_ptr a l i x (Q : _ → oprop) : (i < List.length l)%nat →
  a ↦ CBlock (BPtrs l) ∗ (a ↦ CBlock (BPtrs (<[i := Some x]> l)) -∗ Q tt) ⊢ wp (set_ptr a i x) Q.
Proof.
  iIntros (Hi) "[H K]". iApply wp_bind. iApply wp_bind. iApply wp_get_block. iFrame "H". iIntros "H". iApply wp_ret.
  apply Nat.ltb_lt in Hi. rewrite Hi. iApply wp_put. iFrame.
Qed.
Lemma resize_more {A} (l : list (option A)) n : (List.length l ≤ n)%nat → resize l n = l ++ repeat None (n - List.length l).
Proof.
  intros H. unfold resize. rewrite firstn_app. rewrite firstn_all2; [|lia]. f_equal.
  rewrite -(firstn_skipn (n - List.length l) (repeat None n)) firstn_app firstn_firstn Nat.min_id.
  rewrite firstn_length repeat_length Nat.min_l; [|lia]. rewrite Nat.sub_diag firstn_O app_nil_r.
  clear H. generalize (n - List.length l)%nat, (Nat.le_sub_l n (List.length l)). clear. revert n.
  induction n as [|n IH]; intros [|m] H; cbn; try done; [lia|]. f_equal. apply IH. lia.
Qed.
Lemma wp_realloc_ints a l n (Q : _ → oprop) :
  a ↦ CBlock (BInts l) ∗ (∀ b, b ↦ CBlock (BInts (resize l n)) -∗ Q b) ⊢ wp (realloc_ints a n) Q.
Proof.
  iIntros "[H K]". iDestruct (isnull_false with "H") as "[%E H]". unfold realloc_ints. rewrite E. iApply wp_bind.
  iApply wp_bind. iApply wp_get_block. iFrame "H". iIntros "H". iApply wp_ret. iApply wp_bind. iApply wp_free. iFrame "H". by iApply wp_malloc.
Qed.
Lemma wp_realloc_ptrs a l n (Q : _ → oprop) :
  a ↦ CBlock (BPtrs l) ∗ (∀ b, b ↦ CBlock (BPtrs (resize l n)) -∗ Q b) ⊢ wp (realloc_ptrs a n) Q.
Proof.
  iIntros "[H K]". iDestruct (isnull_false with "H") as "[%E H]". unfold realloc_ptrs. rewrite E. iApply wp_bind.
  iApply wp_bind. iApply wp_get_block. iFrame "H". iIntros "H". iApply wp_ret. iApply wp_bind. iApply wp_free. iFrame "H". by iApply wp_malloc.
Qed.

(** *** Loops *)
Lemma wp_pfor (I : nat → oprop) f k : ∀ i (Q : _ → oprop),
  (∀ j, (i ≤ j < i + k)%nat → I j ⊢ wp (f j) (λ _, I (S j))) →
  I i ∗ (I (i + k)%nat -∗ Q tt) ⊢ wp (pfor k i f) Q.
Proof.
  induction k as [|k IH]; intros i Q H; cbn [pfor].
  - rewrite Nat.add_0_r. iIntros "[H K]". iApply wp_ret. by iApply "K".
  - iIntros "[H K]". iApply wp_bind. iApply wp_wand. iSplitL "H". { iApply (H i with "H"). lia. }
    iIntros (_) "H". iApply IH; [intros j Hj; apply H; lia|]. iFrame "H". by rewrite Nat.add_succ_r.
Qed.
Lemma wp_pfor0 (I : nat → oprop) f k (Q : _ → oprop) :
  (∀ j, (j < k)%nat → I j ⊢ wp (f j) (λ _, I (S j))) → I O ∗ (I k -∗ Q tt) ⊢ wp (pfor k 0 f) Q.
Proof. intros H. apply (wp_pfor I f k 0). intros j Hj. apply H. lia. Qed.

(** *** Arrays filled element by element *)
Definition fill {A} (l : list A) (j : nat) : list (option A) := map Some (firstn j l) ++ repeat None (List.length l - j).
Lemma fill_0 {A} (l : list A) : fill l 0 = repeat None (List.length l).
Proof. unfold fill. by rewrite Nat.sub_0_r. Qed.
Lemma fill_all {A} (l : list A) : fill l (List.length l) = map Some l.
Proof. unfold fill. by rewrite Nat.sub_diag firstn_all app_nil_r. Qed.
Lemma fill_length {A} (l : list A) j : (j ≤ List.length l)%nat → List.length (fill l j) = List.length l.
Proof. intros H. unfold fill. rewrite app_length map_length firstn_length repeat_length. lia. Qed.
Lemma fill_step {A} (l : list A) j x : l !! j = Some x → <[j := Some x]> (fill l j) = fill l (S j).
Proof.
  intros H. assert (j < List.length l)%nat as Hj by (apply lookup_lt_is_Some; by eexists).
  unfold fill. rewrite (take_S_r l j x H). rewrite map_app -app_assoc.
  rewrite insert_app_r_alt; [|rewrite map_length firstn_length; lia]. f_equal.
  rewrite map_length firstn_length Nat.min_l; [|lia]. rewrite Nat.sub_diag.
  replace (List.length l - j)%nat with (S (List.length l - S j)) by lia. done.
Qed.
Lemma map_Some_lookup {A} (l : list A) i x : l !! i = Some x → map Some l !! i = Some (Some x).
Proof. revert i. induction l as [|y l IH]; intros [|i] H; try discriminate; cbn in *; [by injection H as ->|by apply IH]. Qed.

(** Strings *)
Lemma wp_get_str_own h p s (Q : _ → oprop) : h !! p = Some (CBlock (BStr s)) → own h ∗ (own h -∗ Q s) ⊢ wp (get_str p) Q.
Proof. iIntros (E) "[H K]". iApply wp_bind. iApply wp_get_block_own; [done|]. iFrame. iIntros "H". iApply wp_ret. by iApply "K". Qed.
Lemma wp_strdup h p s (Q : _ → oprop) : sees h (m_str p (Some s)) →
  own h ∗ (∀ q, own h -∗ M (m_str q (Some s)) -∗ Q q) ⊢ wp (strdup_p p) Q.
Proof.
  iIntros ([E Hp]%sees_cell) "[H K]". iApply wp_bind. iApply wp_get_str_own; [done|]. iFrame "H". iIntros "H".
  iApply wp_malloc. iIntros (q) "N". iApply ("K" with "H N").
Qed.
Lemma wp_OSL_strdup h p s (Q : _ → oprop) : sees h (m_str p s) →
  own h ∗ (∀ q, own h -∗ M (m_str q s) -∗ Q q) ⊢ wp (OSL_strdup_p p) Q.
Proof.
  intros H. unfold OSL_strdup_p. destruct s as [s|].
  - pose proof (sees_cell _ _ _ H) as [_ Hp]. rewrite null_ne; [|done]. by apply wp_strdup.
  - apply sees_nothing in H as ->. cbn. iIntros "[H K]". iApply wp_ret. iApply ("K" with "H"). done.
Qed.
Lemma m_str_null p s : M (m_str p s) ⊢ <affine> ⌜isnull p = match s with None => true | _ => false end⌝ ∗ M (m_str p s).
Proof.
  destruct s as [s|]; cbn [m_str].
  - rewrite M_cell. apply isnull_false.
  - iIntros "%H". subst p. done.
Qed.
Lemma wp_free_str p s (Q : _ → oprop) : M (m_str p s) ∗ Q tt ⊢ wp (free p) Q.
Proof.
  destruct s as [s|]; cbn [m_str].
  - rewrite M_cell. apply wp_free.
  - iIntros "[%H K]". subst p. by iApply wp_free_null.
Qed.
Lemma wp_free_if_str p s (Q : _ → oprop) : M (m_str p s) ∗ Q tt ⊢ wp (if isnull p then ret tt else free p) Q.
Proof.
  iIntros "[H K]". iDestruct (m_str_null with "H") as "[%E H]". rewrite E. destruct s.
  - iApply wp_free_str. iFrame.
  - cbn [m_str]. iDestruct "H" as "_". by iApply wp_ret.
Qed.

(** Arrays of numbers *)
Lemma m_ints_null p l : M (m_ints p l) ⊢ M (m_ints p l) ∗ <affine> ⌜isnull p = true → l = []⌝.
Proof.
  unfold m_ints, isnull. destruct (p =? NULL) eqn:E.
  - iIntros "%H". iSplit; done.
  - iIntros "H". iFrame. done.
Qed.
Lemma wp_free_ints p l (Q : _ → oprop) : M (m_ints p l) ∗ Q tt ⊢ wp (free p) Q.
Proof.
  unfold m_ints. destruct (Z.eqb_spec p NULL) as [->|E].
  - iIntros "[%H K]". by iApply wp_free_null.
  - rewrite M_cell. apply wp_free.
Qed.
Lemma wp_free_if_ints p l (Q : _ → oprop) : M (m_ints p l) ∗ Q tt ⊢ wp (if isnull p then ret tt else free p) Q.
Proof.
  unfold m_ints, isnull. destruct (p =? NULL) eqn:E.
  - iIntros "[%H K]". by iApply wp_ret.
  - rewrite M_cell. apply wp_free.
Qed.
Lemma m_ints_block p l : p ↦ CBlock (BInts (map Some l)) ⊢ M (m_ints p l).
Proof. iIntros "H". iDestruct (isnull_false with "H") as "[%E H]". unfold m_ints. unfold isnull in E. rewrite E. done. Qed.
Lemma sees_ints h a l i x : sees h (m_ints a l) → l !! i = Some x → h !! a = Some (CBlock (BInts (map Some l))).
Proof.
  unfold m_ints. destruct (a =? NULL).
  - intros ->%sees_nothing. done.
  - intros [H _]%sees_cell. done.
Qed.
Lemma wp_read_int h a l i x (Q : _ → oprop) : sees h (m_ints a l) → l !! i = Some x →
  own h ∗ (own h -∗ Q x) ⊢ wp (int_at a i) Q.
Proof. intros H Hi. eapply wp_int_at_own; [by eapply sees_ints|]. by apply map_Some_lookup. Qed.
Lemma lookup_ex {A} (l : list A) j : (j < List.length l)%nat → (∃ x, l !! j = Some x)%type.
Proof. intros H. apply lookup_lt_is_Some in H. destruct H as [x H]. by exists x. Qed.
Lemma wp_fill_int a (l : list Z) j x (Q : _ → oprop) : l !! j = Some x →
  a ↦ CBlock (BInts (fill l j)) ∗ (a ↦ CBlock (BInts (fill l (S j))) -∗ Q tt) ⊢ wp (set_int a j x) Q.
Proof.
  intros H. rewrite -(fill_step l j x H). apply wp_set_int. rewrite fill_length.
  - apply lookup_lt_is_Some. by eexists.
  - apply Nat.lt_le_incl, lookup_lt_is_Some. by eexists.
Qed.
Lemma wp_copy_ints h a l a' (Q : _ → oprop) : sees h (m_ints a l) →
  own h ∗ a' ↦ CBlock (BInts (repeat None (List.length l))) ∗ (own h -∗ M (m_ints a' l) -∗ Q tt)
  ⊢ wp (pfor (List.length l) 0 (λ i, x <== int_at a i ;; set_int a' i x)) Q.
Proof.
  iIntros (Hs) "(H & A & K)".
  iApply (wp_pfor0 (λ j, own h ∗ a' ↦ CBlock (BInts (fill l j)))%I).
  - intros j Hj. destruct (lookup_ex l j Hj) as [x Hx]. iIntros "[H A]". iApply wp_bind. iApply wp_read_int; [done..|]. iFrame "H". iIntros "H".
    iApply wp_fill_int; [done|]. iFrame "A". iIntros "A". iFrame.
  - rewrite fill_0 fill_all. iFrame "H A". iIntros "[H A]". iApply ("K" with "H"). by iApply m_ints_block.
Qed.
End R.
