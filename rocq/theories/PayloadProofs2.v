(** * PayloadProofs2: strings and bodies *)
From stdpp Require Import gmap.
From iris.proofmode Require Import tactics.
From Coq Require Import ZifyBool ZifyNat.
From Verif Require Import Base IntModel VectorModel RelationModel RelSpec StringsModel ExtModel HeapModel HeapObjects HeapSpec HeapLogic HeapProofs PayloadModel PayloadSpec PayloadProofs.
Local Open Scope string_scope.
Local Open Scope list_scope.
Local Open Scope Z_scope.
Local Open Scope bi_scope.

Lemma M_own m : M m ⊣⊢ ∃ h, <affine> ⌜m h⌝ ∗ own h.
Proof.
  constructor. intros h. split.
  - intros H%M_holds. exists h, ∅, h. rewrite left_id_L. split; [done|]. split; [apply map_disjoint_empty_l|]. done.
  - intros (h0 & h1 & h2 & -> & Hd & [-> H] & ->). rewrite left_id_L. by apply M_holds.
Qed.

Section R.
Context {cfg : config} {al : Allocator obj}.

(** A program that only reads. *)
Lemma wp_reads {A} (c : oprog A) m v (Q : A → oprop) :
  (∀ h Q', sees h m → own h ∗ (own h -∗ Q' v) ⊢ wp c Q') → M m ∗ (M m -∗ Q v) ⊢ wp c Q.
Proof.
  iIntros (H) "[A K]". rewrite {1}M_own. iDestruct "A" as (h) "[%Hm A]". iApply (H h); [by apply sees_self|]. iFrame "A". iIntros "A".
  iApply "K". rewrite M_own. iExists h. by iFrame.
Qed.

(** *** Tables of strings *)
Lemma m_strs_length l : ∀ ps, M (m_strs ps l) ⊢ <affine> ⌜List.length ps = List.length l⌝ ∗ M (m_strs ps l).
Proof.
  induction l as [|s l IH]; intros [|p ps]; cbn [m_strs].
  - iIntros "H". by iFrame.
  - by iIntros "%".
  - by iIntros "%".
  - iIntros "[A B]". iDestruct (IH with "B") as "[%E B]". iSplitR; [iPureIntro; cbn; lia|]. iSplitL "A"; done.
Qed.
Lemma m_strs_snoc l s q : ∀ ps, M (m_strs ps l) ∗ M (m_str q s) ⊢ M (m_strs (ps ++ [q]) (l ++ [s])).
Proof.
  induction l as [|s' l IH]; intros [|p ps]; cbn [m_strs app].
  - iIntros "[A B]". iSplitL "B"; [done|]. done.
  - by iIntros "[%F ?]".
  - by iIntros "[%F ?]".
  - iIntros "[[A B] C]". iSplitL "A"; [done|]. iApply IH. iFrame.
Qed.
Lemma sees_strs_length h l : ∀ ps, sees h (m_strs ps l) → List.length ps = List.length l.
Proof.
  induction l as [|s l IH]; intros [|p ps]; cbn [m_strs]; try by intros ?%sees_nothing.
  intros [_ H]%sees_beside. cbn. f_equal. by apply IH.
Qed.
Lemma sees_strs h l s : ∀ ps i, sees h (m_strs ps l) → l !! i = Some s → (∃ p, ps !! i = Some p ∧ sees h (m_str p s))%type.
Proof.
  induction l as [|s' l IH]; intros [|p ps] [|i]; cbn [m_strs]; try done; try by intros ?%sees_nothing.
  - intros [H _]%sees_beside [= ->]. by exists p.
  - intros [_ H]%sees_beside Hi. by apply (IH ps i).
Qed.
Lemma sees_strs_nonnull h l : ∀ ps, sees h (m_strs ps (map Some l)) → Forall (λ p, p ≠ NULL) ps.
Proof.
  induction l as [|s' l IH]; intros [|p ps]; cbn [m_strs List.map].
  - constructor.
  - by intros ?%sees_nothing.
  - constructor.
  - intros [[_ H1]%sees_cell H]%sees_beside. constructor; [done|by apply IH].
Qed.
(** Adding one pointer to an array being filled *)
Lemma wp_push_ptr b (qs : list ptr) z r y (Q : _ → oprop) :
  b ↦ CBlock (BPtrs (map Some qs ++ z :: r)) ∗ (b ↦ CBlock (BPtrs (map Some (qs ++ [y]) ++ r)) -∗ Q tt) ⊢ wp (set_ptr b (List.length qs) y) Q.
Proof.
  iIntros "[B K]". iApply wp_set_ptr; [|iFrame "B"; iIntros "B"; iApply "K"].
  - rewrite app_length map_length. cbn. lia.
  - rewrite insert_app_r_alt; [|rewrite map_length; lia]. rewrite map_length Nat.sub_diag. cbn. by rewrite map_app -app_assoc.
Qed.
(** Copying the strings of a table *)
Lemma wp_copy_strs (f : nat → oprog unit) h ps l b r (Q : _ → oprop) : sees h (m_strs ps l) →
  (∀ i p (Q' : _ → oprop), ps !! i = Some p → own h ∗ (own h -∗ wp (y <== OSL_strdup_p p ;; set_ptr b i y) Q') ⊢ wp (f i) Q') →
  own h ∗ b ↦ CBlock (BPtrs (repeat None (List.length l) ++ r)) ∗
    (∀ qs, own h -∗ b ↦ CBlock (BPtrs (map Some qs ++ r)) -∗ M (m_strs qs l) -∗ Q tt)
  ⊢ wp (pfor (List.length l) 0 f) Q.
Proof.
  iIntros (Hs Hg) "(H & B & K)".
  iApply (wp_pfor0 (λ j, own h ∗ ∃ qs, <affine> ⌜List.length qs = j⌝ ∗ b ↦ CBlock (BPtrs (map Some qs ++ repeat None (List.length l - j) ++ r)) ∗ M (m_strs qs (firstn j l)))%I).
  - intros j Hj. iIntros "(H & %qs & %Hq & B & S)". subst j. destruct (lookup_ex l _ Hj) as [s Hl].
    destruct (sees_strs h l s ps _ Hs Hl) as (p & Hp & Hps). iApply (Hg _ p); [done|]. iFrame "H". iIntros "H".
    iApply wp_bind. iApply wp_OSL_strdup; [done|]. iFrame "H". iIntros (q) "H N".
    replace (List.length l - List.length qs)%nat with (S (List.length l - S (List.length qs))) by lia. cbn [repeat app].
    iApply wp_push_ptr. iFrame "B". iIntros "B". iFrame "H". iExists (qs ++ [q]). rewrite app_length. iSplitR; [iPureIntro; cbn; lia|].
    iFrame "B". rewrite (take_S_r l _ s Hl). iApply m_strs_snoc. iFrame.
  - iFrame "H". iSplitL "B". { iExists []. rewrite Nat.sub_0_r. cbn. by iFrame. }
    iIntros "(H & %qs & %Hq & B & S)". rewrite Nat.sub_diag firstn_all. iApply ("K" with "H B S").
Qed.
(** Freeing the strings of a table *)
Lemma wp_free_strs (f : ptr → oprog unit) m ps l (Q : _ → oprop) :
  (∀ p s (Q' : _ → oprop), M (m_str p s) ∗ Q' tt ⊢ wp (f p) Q') →
  m ↦ CBlock (BPtrs (map Some ps)) ∗ M (m_strs ps l) ∗ (m ↦ CBlock (BPtrs (map Some ps)) -∗ Q tt)
  ⊢ wp (pfor (List.length l) 0 (λ k, x <== ptr_at m k ;; f x)) Q.
Proof.
  iIntros (Hf) "(A & S & K)". iDestruct (m_strs_length with "S") as "[%E S]".
  iApply (wp_pfor0 (λ j, m ↦ CBlock (BPtrs (map Some ps)) ∗ M (m_strs (skipn j ps) (skipn j l)))%I).
  - intros j Hj. destruct (lookup_ex l j Hj) as [s Hl]. destruct (lookup_ex ps j) as [p Hp]; [lia|].
    rewrite (drop_S l s j Hl) (drop_S ps p j Hp). cbn [m_strs].
    iIntros "(A & P & S)". iApply wp_bind. iApply wp_ptr_at; [by apply map_Some_lookup|]. iFrame "A". iIntros "A".
    iApply Hf. iFrame.
  - rewrite !skipn_O. iFrame "A S". iIntros "[A S]". rewrite -{1}E skipn_all skipn_all. cbn [m_strs]. iDestruct "S" as "_". by iApply "K".
Qed.

(** ** Strings *)
Lemma wp_get_strings p a (Q : _ → oprop) : p ↦ CBlock (BStrings a) ∗ (p ↦ CBlock (BStrings a) -∗ Q a) ⊢ wp (get_strings p) Q.
Proof. iIntros "[H K]". iApply wp_bind. iApply wp_get_block. iFrame "H". iIntros "H". iApply wp_ret. by iApply "K". Qed.
Lemma wp_get_strings_own h p a (Q : _ → oprop) : h !! p = Some (CBlock (BStrings a)) → own h ∗ (own h -∗ Q a) ⊢ wp (get_strings p) Q.
Proof. iIntros (E) "[H K]". iApply wp_bind. iApply wp_get_block_own; [done|]. iFrame "H". iIntros "H". iApply wp_ret. by iApply "K". Qed.
Lemma wp_get_ptrs_own h p a (Q : _ → oprop) : h !! p = Some (CBlock (BPtrs a)) → own h ∗ (own h -∗ Q a) ⊢ wp (get_ptrs p) Q.
Proof. iIntros (E) "[H K]". iApply wp_bind. iApply wp_get_block_own; [done|]. iFrame "H". iIntros "H". iApply wp_ret. by iApply "K". Qed.
Lemma wp_get_ptrs p a (Q : _ → oprop) : p ↦ CBlock (BPtrs a) ∗ (p ↦ CBlock (BPtrs a) -∗ Q a) ⊢ wp (get_ptrs p) Q.
Proof. iIntros "[H K]". iApply wp_bind. iApply wp_get_block. iFrame "H". iIntros "H". iApply wp_ret. by iApply "K". Qed.

Lemma wp_strings_malloc_raw (Q : _ → oprop) :
  (∀ p a, p ↦ CBlock (BStrings a) -∗ a ↦ CBlock (BPtrs [Some NULL]) -∗ Q p) ⊢ wp osl_strings_malloc_p Q.
Proof.
  iIntros "K". iApply wp_bind. iApply wp_malloc. iIntros (p) "P". iApply wp_bind. iApply wp_malloc. iIntros (a) "A".
  iApply wp_bind. iApply wp_put. iFrame "P". iIntros "P". iApply wp_bind. iApply (wp_set_ptr a [None]); [cbn; lia|]. iFrame "A". iIntros "A".
  iApply wp_ret. iApply ("K" with "P A").
Qed.
Lemma m_strings_intro p a ps l : p ↦ CBlock (BStrings a) ∗ a ↦ CBlock (BPtrs (map Some ps ++ [Some NULL])) ∗ M (m_strs ps (map Some l))
  ⊢ M (m_strings p (Some (Some l))).
Proof.
  iIntros "(P & A & S)". cbn [m_strings]. iExists (a, ps). cbn. iSplitL "P"; [by rewrite M_cell|]. iSplitL "A"; [|done].
  by rewrite M_cell map_app.
Qed.
Lemma wp_strings_malloc (Q : _ → oprop) : (∀ p, M (m_strings p (Some (Some []))) -∗ Q p) ⊢ wp osl_strings_malloc_p Q.
Proof.
  iIntros "K". iApply wp_strings_malloc_raw. iIntros (p a) "P A". iApply "K". iApply (m_strings_intro p a [] []). iFrame "P A". done.
Qed.
Lemma end_lookup (ps : list ptr) : map Some (ps ++ [NULL]) !! List.length ps = Some (Some NULL).
Proof. apply map_Some_lookup. by apply list_lookup_middle. Qed.
Lemma mid_lookup (ps : list ptr) i p : ps !! i = Some p → map Some (ps ++ [NULL]) !! i = Some (Some p).
Proof. intros H. apply map_Some_lookup. by apply lookup_app_l_Some. Qed.
Lemma wp_count_from h a ps (Q : _ → oprop) : h !! a = Some (CBlock (BPtrs (map Some (ps ++ [NULL])))) → Forall (λ p, p ≠ NULL) ps →
  ∀ fuel i, (i ≤ List.length ps)%nat → (List.length ps - i < fuel)%nat →
  own h ∗ (own h -∗ Q (List.length ps)) ⊢ wp (count_from fuel a i) Q.
Proof.
  intros E Hn. induction fuel as [|fuel IH]; intros i Hi Hf; [lia|]. cbn [count_from]. iIntros "[H K]". iApply wp_bind.
  destruct (decide (i = List.length ps)) as [->|Hne].
  - iApply wp_ptr_at_own; [done|apply end_lookup|]. iFrame "H". iIntros "H". cbn. iApply wp_ret. by iApply "K".
  - destruct (lookup_ex ps i) as [p Hp]; [lia|]. iApply wp_ptr_at_own; [done|by apply mid_lookup|]. iFrame "H". iIntros "H".
    rewrite null_ne; [|by eapply Forall_lookup_1 in Hp; [|exact Hn]]. iApply IH; [lia|lia|]. iFrame.
Qed.
Definition count (x : option strings) : nat := match x with Some (Some l) => List.length l | _ => O end.
Lemma wp_strings_size_own h p x (Q : _ → oprop) : sees h (m_strings p x) →
  own h ∗ (own h -∗ Q (count x)) ⊢ wp (osl_strings_size_p p) Q.
Proof.
  intros H. unfold osl_strings_size_p. destruct x as [[l|]|]; cbn [m_strings count] in *.
  - apply sees_somewhere in H as [[a ps] H]. apply sees_beside in H as [[Hp Hn]%sees_cell H]. apply sees_beside in H as [[Ha Hna]%sees_cell H].
    rewrite !(null_ne p Hn). iIntros "[H K]". iApply wp_bind. iApply wp_get_strings_own; [done|]. iFrame "H". iIntros "H".
    rewrite (null_ne a Hna). iApply wp_bind. iApply wp_get_ptrs_own; [done|]. iFrame "H". iIntros "H".
    pose proof (sees_strs_length _ _ _ H) as HL. rewrite map_length in HL. rewrite -HL.
    iApply (wp_count_from h a ps); [done|by eapply sees_strs_nonnull|lia|rewrite map_length app_length; cbn; lia|]. iFrame.
  - apply sees_cell in H as [Hp Hn]. rewrite (null_ne p Hn). iIntros "[H K]". iApply wp_bind. iApply wp_get_strings_own; [done|].
    iFrame "H". iIntros "H". cbn. iApply wp_ret. by iApply "K".
  - apply sees_nothing in H as ->. cbn. iIntros "[H K]". iApply wp_ret. by iApply "K".
Qed.
Lemma wp_strings_size p x (Q : _ → oprop) : M (m_strings p x) ∗ (M (m_strings p x) -∗ Q (count x)) ⊢ wp (osl_strings_size_p p) Q.
Proof. apply wp_reads. intros h Q'. apply wp_strings_size_own. Qed.

Lemma wp_free_from a ps l : ∀ fuel i (Q : _ → oprop), (i ≤ List.length ps)%nat → (List.length ps - i < fuel)%nat → 
  a ↦ CBlock (BPtrs (map Some (ps ++ [NULL]))) ∗ M (m_strs (skipn i ps) (skipn i (map Some l))) ∗
    (a ↦ CBlock (BPtrs (map Some (ps ++ [NULL]))) -∗ Q tt) ⊢ wp (free_from fuel a i) Q.
Proof.
  induction fuel as [|fuel IH]; intros i Q Hi Hf; [lia|]. cbn [free_from]. iIntros "(A & S & K)".
  iDestruct (m_strs_length with "S") as "[%E S]". rewrite !skipn_length map_length in E. iApply wp_bind.
  destruct (decide (i = List.length ps)) as [->|Hne].
  - iApply wp_ptr_at; [apply end_lookup|]. iFrame "A". iIntros "A". cbn. iApply wp_ret. rewrite skipn_all.
    rewrite skipn_all2; [|rewrite map_length; lia]. cbn [m_strs]. iDestruct "S" as "_". by iApply "K".
  - destruct (lookup_ex ps i) as [p Hp]; [lia|]. destruct (lookup_ex l i) as [s Hs]; [lia|].
    iApply wp_ptr_at; [by apply mid_lookup|]. iFrame "A". iIntros "A".
    rewrite (drop_S ps p i Hp) (drop_S (map Some l) (Some s) i (map_Some_lookup _ _ _ Hs)). cbn [m_strs]. iDestruct "S" as "[P S]".
    iDestruct (m_str_null with "P") as "[%En P]". rewrite En. iApply wp_bind. iApply wp_free_str. iFrame "P".
    iApply IH; [lia|lia|]. iFrame.
Qed.
Lemma wp_strings_free p x (Q : _ → oprop) : M (m_strings p x) ∗ Q tt ⊢ wp (osl_strings_free_p p) Q.
Proof.
  unfold osl_strings_free_p. destruct x as [[l|]|]; cbn [m_strings].
  - iIntros "[(%w & H) K]". destruct w as [a ps]. iDestruct "H" as "(P & A & S)". rewrite !M_cell.
    iDestruct (isnull_false with "P") as "[%Ep P]". iDestruct (isnull_false with "A") as "[%Ea A]". rewrite Ep.
    iApply wp_bind. iApply wp_get_strings. iFrame "P". iIntros "P". rewrite Ea. iApply wp_bind. iApply wp_bind. iApply wp_get_ptrs. iFrame "A". iIntros "A".
    iApply wp_bind. iApply (wp_free_from a ps l); [lia|rewrite map_length app_length; cbn; lia|]. rewrite !skipn_O. iFrame "A S". iIntros "A".
    iApply wp_free. iFrame "A". iApply wp_free. iFrame.
  - rewrite M_cell. iIntros "[P K]". iDestruct (isnull_false with "P") as "[%Ep P]". rewrite Ep. iApply wp_bind. iApply wp_get_strings. iFrame "P". iIntros "P".
    cbn. iApply wp_bind. iApply wp_ret. iApply wp_free. iFrame.
  - iIntros "[%H K]". subst p. by iApply wp_ret.
Qed.
Lemma new_table n : <[n := Some NULL]> (repeat (None : option ptr) (n + 1)) = repeat None n ++ [Some NULL].
Proof.
  rewrite repeat_app. rewrite insert_app_r_alt; [|rewrite repeat_length; lia]. by rewrite repeat_length Nat.sub_diag.
Qed.
Lemma clone_strings_none : osl_strings_clone (Some None) = Some (Some []).
Proof. done. Qed.
Lemma wp_strings_clone h p x (Q : _ → oprop) : sees h (m_strings p x) →
  own h ∗ (∀ q, own h -∗ M (m_strings q (osl_strings_clone x)) -∗ Q q) ⊢ wp (osl_strings_clone_p p) Q.
Proof.
  intros Hs. unfold osl_strings_clone_p. destruct x as [x|].
  2:{ apply sees_nothing in Hs as ->. cbn. iIntros "[H K]". iApply wp_ret. iApply ("K" with "H"). done. }
  assert (p ≠ NULL) as Hn.
  { destruct x as [l|]; cbn [m_strings] in Hs; [|by apply sees_cell in Hs as [_ ?]].
    apply sees_somewhere in Hs as [[a ps] Hs]. apply sees_beside in Hs as [[_ ?]%sees_cell _]. done. }
  rewrite (null_ne p Hn). iIntros "[H K]". iApply wp_bind. iApply wp_strings_malloc_raw. iIntros (c a) "C A".
  iApply wp_bind. iApply wp_strings_size_own; [done|]. iFrame "H". iIntros "H".
  destruct (count (Some x)) as [|n] eqn:En.
  { cbn [Nat.eqb]. iApply wp_ret. iApply ("K" with "H"). 
    assert (osl_strings_clone (Some x) = Some (Some [])) as ->. { destruct x as [[|s l]|]; done. }
    iApply (m_strings_intro c a [] []). iFrame "C A". done. }
  assert (osl_strings_clone (Some x) = Some x) as ->. { destruct x as [[|s l]|]; done. }
  cbn [Nat.eqb]. destruct x as [l|]; [|done]. cbn [count] in En. rewrite -En.
  cbn [m_strings] in Hs. apply sees_somewhere in Hs as [[b ps] Hs].
  apply sees_beside in Hs as [[Hp _]%sees_cell Hs]. apply sees_beside in Hs as [[Hb _]%sees_cell Hs].
  iApply wp_bind. iApply wp_get_strings. iFrame "C". iIntros "C". iApply wp_bind. iApply wp_free. iFrame "A".
  iApply wp_bind. iApply wp_malloc. iIntros (d) "D". iApply wp_bind. iApply wp_put. iFrame "C". iIntros "C".
  iApply wp_bind. iApply (wp_set_ptr d (repeat None (List.length l + 1))); [rewrite repeat_length; lia|]. iFrame "D". iIntros "D". rewrite new_table. iApply wp_bind.
  pose proof (map_length Some l) as HL. rewrite -HL.
  iApply (wp_copy_strs _ h ps (map Some l) d [Some NULL]); [done| |].
  - intros i q Q' Hq. iIntros "[H K]". iApply wp_bind. iApply wp_get_strings_own; [done|]. iFrame "H". iIntros "H".
    iApply wp_bind. iApply wp_ptr_at_own; [done|by apply mid_lookup|]. iFrame.
  - iFrame "H D". iIntros (qs) "H D S". iApply wp_ret. iApply ("K" with "H"). iApply m_strings_intro. iFrame.
Qed.
End R.
