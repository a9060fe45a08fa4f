(** * FullProofs: chains of nodes, interfaces, extensions and symbols in memory *)
From stdpp Require Import gmap.
From iris.proofmode Require Import tactics.
From Coq Require Import ZifyBool ZifyNat.
From Verif Require Import Base IntModel VectorModel RelationModel RelSpec StringsModel ExtModel ScopModel HeapModel HeapObjects HeapSpec HeapLogic HeapProofs PayloadModel PayloadSpec PayloadProofs PayloadProofs2 PayloadProofs3 PayloadProofs4 PayloadProofs5 PayloadProofs6 PropStrings PropHeap FullModel FullSpec.
Local Open Scope string_scope.
Local Open Scope list_scope.
Local Open Scope Z_scope.
Local Open Scope bi_scope.
Notation loop := HeapModel.loop.

(** ** Chains *)
Definition sumw {A} (w : A → nat) : list A → nat := fix go l := match l with [] => O | x :: l' => (w x + go l')%nat end.
Section CHAIN.
Context {A : Type} (one : ptr → A → ptr → mem).
Lemma M_chain_nil p : M (m_chain one p []) ⊣⊢ <affine> ⌜p = NULL⌝.
Proof. apply M_nothing. Qed.
Lemma M_chain_cons p x l : M (m_chain one p (x :: l)) ⊣⊢ ∃ n, M (one p x n) ∗ M (m_chain one n l).
Proof. cbn [m_chain]. rewrite M_somewhere. apply bi.exist_proper. intros n. by rewrite M_beside. Qed.
Lemma sees_chain_cons h p x l : sees h (m_chain one p (x :: l)) → (∃ n, sees h (one p x n) ∧ sees h (m_chain one n l))%type.
Proof. intros [n H]%sees_somewhere. exists n. by apply sees_beside in H. Qed.
Lemma M_chain_one p x : M (one p x NULL) ⊣⊢ M (m_chain one p [x]).
Proof.
  rewrite M_chain_cons. iSplit.
  - iIntros "H". iExists NULL. iFrame "H". by rewrite M_chain_nil.
  - iIntros "(%n & H & R)". rewrite M_chain_nil. by iDestruct "R" as %->.
Qed.
Lemma chain_size (w : A → nat) l : Forall (λ x, ∀ p n, M (one p x n) ⊢ size_ge (w x))%type l → ∀ p, M (m_chain one p l) ⊢ size_ge (sumw w l).
Proof.
  induction 1 as [|x l Hx Hl IH]; intros p; [apply size_ge_0|]. rewrite M_chain_cons. iIntros "(%n & H)". iStopProof. cbn [sumw].
  apply size_ge_sep; [apply Hx|apply IH].
Qed.
Lemma chain_length_size l : (∀ p x n, M (one p x n) ⊢ size_ge 1) → ∀ p, M (m_chain one p l) ⊢ size_ge (List.length l).
Proof.
  intros H p. rewrite (chain_size (λ _, 1%nat)); [|by apply List.Forall_forall].
  apply size_ge_le. induction l; cbn in *; lia.
Qed.
Hypothesis nonnull : ∀ h p x n, sees h (one p x n) → p ≠ NULL.
Lemma sees_chain_null h p l : sees h (m_chain one p l) → isnull p = match l with [] => true | _ => false end.
Proof.
  destruct l as [|x l].
  - by intros ->%sees_nothing.
  - intros (n & H & _)%sees_chain_cons. by apply null_ne, (nonnull h p x n).
Qed.
Lemma M_null {B} (f : B → bool) (m : B → mem) p x : (∀ h, sees h (m x) → isnull p = f x) → M (m x) ⊢ <affine> ⌜isnull p = f x⌝ ∗ M (m x).
Proof.
  intros H. rewrite {1}(M_own (m x)). iIntros "(%h & %Hm & O)". iSplitR.
  - iPureIntro. by apply (H h), sees_self.
  - rewrite M_own. iExists h. by iFrame.
Qed.
Lemma chain_null p l : M (m_chain one p l) ⊢ <affine> ⌜isnull p = match l with [] => true | _ => false end⌝ ∗ M (m_chain one p l).
Proof. apply (M_null (λ l, match l with [] => true | _ => false end) (m_chain one p)). intros h. apply sees_chain_null. Qed.
Lemma one_null p x n : M (one p x n) ⊢ <affine> ⌜isnull p = false⌝ ∗ M (one p x n).
Proof. apply (M_null (λ _, false) (λ x, one p x n)). intros h H. by apply null_ne, (nonnull h p x n). Qed.
(** Walking to the last node and linking a chain after it *)
Section LINK.
Context (link : nat → ptr → ptr → oprog unit) (setn : ptr → ptr → oprog unit).
Hypothesis step : ∀ f p x n q (Q : _ → oprop), M (one p x n) ∗ (M (one p x n) -∗ wp (if isnull n then setn p q else link f n q) Q) ⊢ wp (link (S f) p q) Q.
Hypothesis seth : ∀ p x n n' (Q : _ → oprop), M (one p x n) ∗ (M (one p x n') -∗ Q tt) ⊢ wp (setn p n') Q.
Lemma wp_link l2 p2 a : ∀ p x fuel (Q : _ → oprop), (List.length a < fuel)%nat →
  M (m_chain one p (x :: a)) ∗ M (m_chain one p2 l2) ∗ (M (m_chain one p ((x :: a) ++ l2)) -∗ Q tt) ⊢ wp (link fuel p p2) Q.
Proof.
  induction a as [|y a IH]; intros p x [|fuel] Q Hf; try (cbn in Hf; lia); rewrite M_chain_cons.
  - iIntros "((%n & P & R) & L & K)". rewrite M_chain_nil. iDestruct "R" as %->. iApply step. iFrame "P". iIntros "P". change (isnull NULL) with true. cbn beta iota.
    iApply seth. iFrame "P". iIntros "P". iApply "K". change ([x] ++ l2) with (x :: l2). rewrite (M_chain_cons p). iExists p2. iFrame.
  - iIntros "((%n & P & R) & L & K)". iApply step. iFrame "P". iIntros "P". iDestruct (chain_null with "R") as "[%E R]". rewrite E.
    iApply (IH n y); [cbn in Hf; lia|]. iFrame "R L". iIntros "R". iApply "K". change ((x :: y :: a) ++ l2) with (x :: (y :: a) ++ l2). rewrite (M_chain_cons p). iExists n. iFrame.
Qed.
Lemma wp_link_loop l2 p2 a p x (Q : _ → oprop) : (∀ p x n, M (one p x n) ⊢ size_ge 1) →
  M (m_chain one p (x :: a)) ∗ M (m_chain one p2 l2) ∗ (M (m_chain one p ((x :: a) ++ l2)) -∗ Q tt) ⊢ wp (loop (λ n, link n p p2)) Q.
Proof.
  intros Hz. apply (wp_loop_on (List.length (x :: a))); [by apply chain_length_size|]. intros n Hn. apply wp_link. cbn in Hn. lia.
Qed.
End LINK.
End CHAIN.

(** ** Interfaces *)
Section R.
Context {cfg : config} {al : Allocator obj}.
Lemma kind_of_code k : kind_of (code k) = Some k.
Proof. by destruct k. Qed.
Lemma sees_iface h p i n : sees h (m_iface p i n) → (∃ u, h !! p = Some (CBlock (BIface u (code (if_kind i)) n)) ∧ p ≠ NULL ∧ sees h (m_str u (if_uri i)))%type.
Proof. intros [u H]%sees_somewhere. exists u. apply sees_beside in H as [[? ?]%sees_cell ?]. done. Qed.
Lemma iface_nonnull h p i n : sees h (m_iface p i n) → p ≠ NULL.
Proof. by intros (u & _ & ? & _)%sees_iface. Qed.
Lemma iface_size p i n : M (m_iface p i n) ⊢ size_ge 1.
Proof. apply size_somewhere. intros u. apply size_first, size_cell. Qed.
Lemma ifaces_size p l : M (m_ifaces p l) ⊢ size_ge (List.length l).
Proof. apply (chain_length_size m_iface l iface_size). Qed.
Lemma m_str_null_own h u s : sees h (m_str u s) → isnull u = match s with None => true | _ => false end.
Proof. destruct s; [intros [_ H]%sees_cell; by apply null_ne|by intros ->%sees_nothing]. Qed.

Lemma wp_iface_free_loop l : ∀ p fuel (Q : _ → oprop), (List.length l < fuel)%nat → M (m_ifaces p l) ∗ Q tt ⊢ wp (iface_free_loop fuel p) Q.
Proof.
  induction l as [|x l IH]; intros p [|fuel] Q Hf; try (cbn in Hf; lia); cbn [iface_free_loop].
  - unfold m_ifaces. rewrite M_chain_nil. iIntros "[%E K]". subst p. by iApply wp_ret.
  - unfold m_ifaces. rewrite M_chain_cons. iIntros "[(%n & (%u & P & A) & R) K]". rewrite M_cell.
    iDestruct (isnull_false with "P") as "[%Ep P]". rewrite Ep. get "P". iApply wp_bind. iApply wp_free_if_str. iFrame "A". iApply wp_bind. iApply wp_free. iFrame "P".
    iApply IH; [cbn in Hf; lia|]. iFrame.
Qed.
Lemma wp_interface_free p l (Q : _ → oprop) : M (m_ifaces p l) ∗ Q tt ⊢ wp (osl_interface_free_f p) Q.
Proof. apply (wp_loop_on (List.length l)); [apply ifaces_size|]. intros n Hn. by apply wp_iface_free_loop. Qed.
Lemma wp_kind_at_own h p i n (Q : _ → oprop) : sees h (m_iface p i n) → own h ∗ (own h -∗ Q (if_kind i)) ⊢ wp (kind_at p) Q.
Proof. intros (u & Hp & _ & _)%sees_iface. iIntros "[H K]". getown Hp. rewrite kind_of_code. iApply wp_ret. by iApply "K". Qed.
Lemma wp_kind_at p i n (Q : _ → oprop) : M (m_iface p i n) ∗ (M (m_iface p i n) -∗ Q (if_kind i)) ⊢ wp (kind_at p) Q.
Proof. apply wp_reads. intros h Q'. apply wp_kind_at_own. Qed.

Definition uri_eqb (o : option str) (s : str) : bool := match o with Some u => str_eqb u s | None => false end.
Lemma wp_uri_is h u o s (Q : _ → oprop) : sees h (m_str u o) → own h ∗ (own h -∗ Q (uri_eqb o s)) ⊢ wp (uri_is u s) Q.
Proof.
  intros H. unfold uri_is. rewrite (m_str_null_own _ _ _ H). destruct o as [t|]; iIntros "[H K]".
  - apply sees_cell in H as [H _]. iApply wp_bind. iApply wp_get_str_own; [done|]. iFrame "H". iIntros "H". iApply wp_ret. by iApply "K".
  - iApply wp_ret. by iApply "K".
Qed.
(** What lookup returns: NULL, or the address of the first interface with this URI *)
Fixpoint iface_at (h : heap obj) (l : list interf) (s : str) (q : ptr) : Prop :=
  match l with
  | [] => q = NULL
  | i :: l' => if uri_eqb (if_uri i) s then (∃ n, sees h (m_iface q i n))%type else iface_at h l' s q
  end.
Lemma iface_at_none h l s q : ¬ In (Some s) (map if_uri l) → iface_at h l s q → q = NULL.
Proof.
  induction l as [|i l IH]; cbn; [done|]. intros Hn. destruct (if_uri i) as [u|]; cbn [uri_eqb]; [|intros; apply IH; tauto].
  destruct (str_eqb u s) eqn:E; [|intros; apply IH; tauto]. apply PropStrings.str_eqb_eq in E. subst. exfalso. by apply Hn; left.
Qed.
Lemma wp_iface_lookup_loop h s l : ∀ p fuel (Q : _ → oprop), sees h (m_ifaces p l) → (List.length l < fuel)%nat →
  own h ∗ (∀ q, <affine> ⌜iface_at h l s q⌝ -∗ own h -∗ Q q) ⊢ wp (iface_lookup_loop fuel p s) Q.
Proof.
  induction l as [|x l IH]; intros p [|fuel] Q Hs Hf; try (cbn in Hf; lia); cbn [iface_lookup_loop]; rewrite (sees_chain_null _ iface_nonnull _ _ _ Hs); iIntros "[H K]".
  - iApply wp_ret. by iApply ("K" with "[%]").
  - apply sees_chain_cons in Hs as (n & Hx & Hl). destruct (sees_iface _ _ _ _ Hx) as (u & Hp & Hn & Hu). getown Hp. iApply wp_bind. iApply wp_uri_is; [done|]. iFrame "H". iIntros "H".
    destruct (uri_eqb (if_uri x) s) eqn:E.
    + iApply wp_ret. iApply ("K" with "[%] H"). cbn [iface_at]. rewrite E. by exists n.
    + iApply IH; [done|cbn in Hf; lia|]. iFrame "H". iIntros (q) "%Hq H". iApply ("K" with "[%] H"). cbn [iface_at]. by rewrite E.
Qed.
Lemma wp_interface_lookup h p l h' u s (Q : _ → oprop) : sees h (m_ifaces p l) → sees h' (m_str u (Some s)) →
  own h ∗ own h' ∗ (∀ q, <affine> ⌜iface_at h l s q⌝ -∗ own h -∗ own h' -∗ Q q) ⊢ wp (osl_interface_lookup_f p u) Q.
Proof.
  intros Hs [Hu Hn]%sees_cell. unfold osl_interface_lookup_f. rewrite (null_ne u Hn). iIntros "(H & H' & K)".
  iApply wp_bind. iApply wp_get_str_own; [done|]. iFrame "H'". iIntros "H'". iCombine "H' K" as "K". iCombine "H K" as "K". iStopProof.
  apply (wp_loop_on (List.length l)); [eapply own_size; [apply ifaces_size|done]|]. intros k Hk. iIntros "(H & H' & K)".
  iApply (wp_iface_lookup_loop h s l); [done..|]. iFrame "H". iIntros (q) "%Hq H". iApply ("K" with "[%//] H H'").
Qed.
Lemma wp_iface_check_loop h h' p acc l : sees h (m_ifaces p acc) → ∀ c fuel (Q : _ → oprop), sees h' (m_ifaces c l) → (List.length l < fuel)%nat →
  Forall (λ i, ∃ u, if_uri i = Some u ∧ ¬ In (Some u) (map if_uri acc))%type l →
  own h ∗ own h' ∗ (own h -∗ own h' -∗ Q tt) ⊢ wp (iface_check_loop fuel p c) Q.
Proof.
  intros Hs. induction l as [|x l IH]; intros c [|fuel] Q Hc Hf Hu; try (cbn in Hf; lia); cbn [iface_check_loop]; rewrite (sees_chain_null _ iface_nonnull _ _ _ Hc); iIntros "(O & H & K)".
  - iApply wp_ret. iApply ("K" with "O H").
  - inversion Hu as [|? ? (v & Ev & Hv) Hu']; subst. apply sees_chain_cons in Hc as (n & Hx & Hl). destruct (sees_iface _ _ _ _ Hx) as (u & Hp & Hn & Huri). getown Hp.
    rewrite (m_str_null_own _ _ _ Huri) Ev. iApply wp_bind. rewrite Ev in Huri. iApply (wp_interface_lookup h p acc h' u v); [done..|]. iFrame "O H". iIntros (q) "%Hq O H".
    apply iface_at_none in Hq as ->; [|done]. change (isnull NULL) with true. cbn beta iota. iApply IH; [done|cbn in Hf; lia|done|]. iFrame.
Qed.
Lemma wp_set_iface_next p x n n' (Q : _ → oprop) : M (m_iface p x n) ∗ (M (m_iface p x n') -∗ Q tt) ⊢ wp (set_iface_next p n') Q.
Proof.
  iIntros "[(%u & P & A) K]". rewrite M_cell. get "P". iApply wp_put. iFrame "P". iIntros "P". iApply "K". iExists u. iSplitL "P"; done.
Qed.
Lemma wp_interface_add p acc c l (Q : _ → oprop) : Forall (λ i, ∃ u, if_uri i = Some u ∧ ¬ In (Some u) (map if_uri acc))%type l →
  M (m_ifaces p acc) ∗ M (m_ifaces c l) ∗ (∀ q, M (m_ifaces q (acc ++ l)) -∗ Q q) ⊢ wp (osl_interface_add_f p c) Q.
Proof.
  intros Hu. iIntros "(P & C & K)". unfold osl_interface_add_f. iDestruct (chain_null _ iface_nonnull with "C") as "[%Ec C]". rewrite Ec. destruct l as [|x l].
  - iApply wp_ret. iApply "K". rewrite app_nil_r. unfold m_ifaces. rewrite M_chain_nil. by iDestruct "C" as "_".
  - iApply wp_bind. unfold m_ifaces. rewrite {1}(M_own (m_chain m_iface p acc)) {1}(M_own (m_chain m_iface c (x :: l))). iDestruct "P" as (h) "[%Hh P]". iDestruct "C" as (h') "[%Hh' C]".
    iCombine "P K" as "K". iCombine "C K" as "K". iStopProof.
    apply (wp_loop_on (List.length (x :: l))); [eapply own_size; [apply (ifaces_size c)|by apply sees_self]|]. intros k Hk. iIntros "(C & P & K)".
    iApply (wp_iface_check_loop h h' p acc (x :: l)); [by apply sees_self|by apply sees_self|done|done|]. iFrame "P C". iIntros "P C".
    iAssert (M (m_chain m_iface p acc)) with "[P]" as "P". { rewrite M_own. iExists h. by iFrame. }
    iAssert (M (m_chain m_iface c (x :: l))) with "[C]" as "C". { rewrite M_own. iExists h'. by iFrame. }
    iDestruct (chain_null _ iface_nonnull with "P") as "[%Ep P]". rewrite Ep. destruct acc as [|y acc].
    + iApply wp_ret. iApply "K". rewrite M_chain_nil. by iDestruct "P" as "_".
    + iApply wp_bind. iApply (wp_link_loop m_iface iface_nonnull iface_link_loop set_iface_next); [|apply wp_set_iface_next|apply iface_size|].
      { intros f q z n q' Q'. iIntros "[(%u & P & A) K]". cbn [iface_link_loop]. rewrite M_cell. get "P". iApply "K". iExists u. iSplitL "P"; done. }
      iFrame "P C". iIntros "P". iApply wp_ret. by iApply "K".
Qed.
Lemma wp_iface_nclone_loop h n l : ∀ p i acc q fuel (Q : _ → oprop), sees h (m_ifaces p l) → (List.length l < fuel)%nat →
  Forall (λ i, if_uri i ≠ None) l → List.NoDup (map if_uri (acc ++ l)) → 0 ≤ i → -1 ≤ n →
  own h ∗ M (m_ifaces q acc) ∗ (∀ q', own h -∗ M (m_ifaces q' (acc ++ if n =? -1 then l else firstn (Z.to_nat (n - i)) l)) -∗ Q q') ⊢ wp (iface_nclone_loop fuel p n i q) Q.
Proof.
  induction l as [|x l IH]; intros p i acc q [|fuel] Q Hs Hf Hu Hd Hi Hn; try (cbn in Hf; lia); cbn [iface_nclone_loop]; rewrite (sees_chain_null _ iface_nonnull _ _ _ Hs); iIntros "(H & A & K)".
  - iApply wp_ret. iApply ("K" with "H"). by destruct (n =? -1); rewrite ?firstn_nil app_nil_r.
  - destruct ((n =? -1) || (i <? n)) eqn:E.
    + inversion Hu as [|? ? Hx Hu']; subst. apply sees_chain_cons in Hs as (nx & Hone & Hl). destruct (sees_iface _ _ _ _ Hone) as (u & Hp & Hnn & Huri).
      iApply wp_bind. iApply wp_malloc. iIntros (new) "N". getown Hp. iApply wp_bind. iApply wp_OSL_strdup; [done|]. iFrame "H". iIntros (u') "H U". putp "N".
      iApply wp_bind. iApply (wp_interface_add q acc new [x]).
      { constructor; [|done]. destruct (if_uri x) as [v|] eqn:Ev; [|done]. exists v. split; [done|]. rewrite map_app in Hd. cbn [List.map] in Hd. apply NoDup_remove_2 in Hd. rewrite Ev in Hd. intros Hin. apply Hd. apply in_or_app. by left. }
      iFrame "A". iSplitL "N U". { iApply M_chain_one. iExists u'. iSplitL "N"; done. } iIntros (q') "A".
      iApply (IH nx (i + 1) (acc ++ [x])); [done|cbn in Hf; lia|done|by rewrite -app_assoc|lia|done|]. iFrame "H A". iIntros (q'') "H A". iApply ("K" with "H").
      rewrite -app_assoc. cbn [app]. destruct (Z.eqb_spec n (-1)); [done|]. assert (i < n) by lia.
      replace (Z.to_nat (n - i)) with (S (Z.to_nat (n - (i + 1)))) by lia. done.
    + iApply wp_ret. iApply ("K" with "H"). apply orb_false_iff in E as [E1 E2]. rewrite E1. apply Z.ltb_ge in E2. replace (Z.to_nat (n - i)) with O by lia. by rewrite firstn_O app_nil_r.
Qed.
Lemma wp_interface_nclone h p l n (Q : _ → oprop) : sees h (m_ifaces p l) → Forall (λ i, if_uri i ≠ None) l → List.NoDup (map if_uri l) → -1 ≤ n →
  own h ∗ (∀ q, own h -∗ M (m_ifaces q (if n =? -1 then l else firstn (Z.to_nat n) l)) -∗ Q q) ⊢ wp (osl_interface_nclone_f p n) Q.
Proof.
  intros Hs Hu Hd Hn. apply (wp_loop_on (List.length l)); [eapply own_size; [apply ifaces_size|done]|]. intros k Hk. iIntros "[H K]".
  iApply (wp_iface_nclone_loop h n l p 0 []); [done..|]. iFrame "H". iSplitR; [done|]. rewrite Z.sub_0_r. iIntros (q) "H N". iApply ("K" with "H N").
Qed.
Lemma wp_interface_clone h p l (Q : _ → oprop) : sees h (m_ifaces p l) → Forall (λ i, if_uri i ≠ None) l → List.NoDup (map if_uri l) →
  own h ∗ (∀ q, own h -∗ M (m_ifaces q l) -∗ Q q) ⊢ wp (osl_interface_clone_f p) Q.
Proof. intros Hs Hu Hd. by apply (wp_interface_nclone h p l (-1)). Qed.
End R.
