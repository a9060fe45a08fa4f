(** * HeapProofs3: removal, counting and copy of extensions; statements *)
From stdpp Require Import gmap.
From iris.proofmode Require Import tactics.
From Coq Require Import ZifyBool ZifyNat.
From Verif Require Import Base IntModel VectorModel RelationModel HeapModel HeapObjects HeapSpec HeapLogic HeapProofs HeapProofs2.
Local Open Scope string_scope.
Local Open Scope list_scope.
Local Open Scope Z_scope.
Local Open Scope bi_scope.

Section G.
Context {cfg : config} {al : Allocator obj}.

Lemma cseg_snoc l y p t q : cseg gnode p l t ∗ gnode t y q ⊢ cseg gnode p (l ++ [y]) q.
Proof.
  revert p. induction l as [|x l IH]; intros p; cbn [cseg app].
  - iIntros "[-> H]". iExists q. by iFrame.
  - iIntros "[(%n & H & L) T]". iExists n. iFrame "H". iApply IH. iFrame.
Qed.
(** The search for the predecessor of the node [q]. *)
Lemma wp_generic_find_loop l : ∀ p x q d i n fuel (Q : _ → oprop), (List.length l < fuel)%nat →
  cseg gnode p (x :: l) q ∗ q ↦ CGen d i n ∗
  (∀ t l' y, <affine> ⌜x :: l = l' ++ [y]⌝ -∗ cseg gnode p l' t -∗ gnode t y q -∗ q ↦ CGen d i n -∗ Q t)
  ⊢ wp (generic_find_loop fuel p q) Q.
Proof.
  induction l as [|y l IH]; intros p x q d i n [|fuel] Q Hf; try (cbn in Hf; lia); cbn [generic_find_loop].
  - cbn [cseg]. iIntros "((%m & (%dx & %ix & H & D & I) & ->) & G & K)". iApply wp_bind. iApply wp_get_gen. iFrame "H". iIntros "H".
    rewrite Z.eqb_refl. cbn [orb]. iApply wp_ret. iApply ("K" $! p [] x with "[//] [//] [H D I] G"). iExists dx, ix. iFrame.
  - iIntros "((%m & (%dx & %ix & H & D & I) & L) & G & K)". iApply wp_bind. iApply wp_get_gen. iFrame "H". iIntros "H".
    iDestruct "L" as (m2) "[(%dy & %iy & Y & YD & YI) L]".
    iDestruct (cell_neq with "[$Y $G]") as "(%E & Y & G)". rewrite E. iDestruct (isnull_false with "Y") as "[%E0 Y]". rewrite E0. cbn [orb].
    iApply (IH m y q d i n); [cbn in Hf; lia|]. iFrame "G". iSplitL "Y YD YI L".
    { iExists m2. iFrame "L". iExists dy, iy. iFrame. }
    iIntros (t l' z) "%El L Z G". iApply ("K" $! t (x :: l') z with "[] [H D I L] Z G"); [by rewrite El|].
    iExists m. iFrame "L". iExists dx, ix. iFrame.
Qed.
Lemma wp_generic_remove_node p l q g n v (Q : _ → oprop) :
  cseg gnode p l q ∗ gnode q g n ∗ glist n v ∗
  (glist (match l with [] => n | _ => p end) (l ++ v) -∗ Q (match l with [] => n | _ => p end))
  ⊢ wp (osl_generic_remove_node_p p q) Q.
Proof.
  iIntros "(L & G & V & K)". unfold osl_generic_remove_node_p. iDestruct (node_nonnull gnode with "G") as "[%Eq G]". rewrite Eq.
  destruct l as [|x l].
  - cbn [cseg app]. iDestruct "L" as "->". rewrite Eq Z.eqb_refl. cbn [orb].
    iDestruct "G" as (d i) "(G & D & I)". iApply wp_bind. iApply wp_get_gen. iFrame "G". iIntros "G".
    iApply wp_bind. iApply wp_set_gen_next. iFrame "G". iIntros "G".
    iApply wp_bind. iApply (wp_generic_free q [g]). iSplitL "G D I".
    { cbn [glist chain]. iExists NULL. iSplit; [|done]. iExists d, i. iFrame. }
    iApply wp_ret. by iApply "K".
  - iDestruct "G" as (d i) "(G & D & I)". iDestruct "L" as (m) "[(%dx & %ix & H & XD & XI) L]".
    iDestruct (cell_neq with "[$H $G]") as "(%E & H & G)". rewrite E. iDestruct (isnull_false with "H") as "[%E0 H]". rewrite E0. cbn [orb].
    iAssert (cseg gnode p (x :: l) q) with "[H XD XI L]" as "L".
    { iExists m. iFrame "L". iExists dx, ix. iFrame. }
    iApply wp_bind. iCombine "G D I V K" as "R". iCombine "L R" as "R". iStopProof.
    apply (wp_loop_on (List.length (x :: l))); [apply cseg_size, _|]. intros k Hk. iIntros "(L & G & D & I & V & K)".
    iApply (wp_generic_find_loop l p x q d i n); [cbn in Hk; lia|]. iFrame "L G". iIntros (t l' y) "%El L Y G".
    iDestruct "Y" as (dy iy) "(Y & YD & YI)". iApply wp_bind. iApply wp_get_gen. iFrame "Y". iIntros "Y". rewrite Z.eqb_refl.
    iApply wp_bind. iApply wp_get_gen. iFrame "G". iIntros "G". iApply wp_bind. iApply wp_set_gen_next. iFrame "Y". iIntros "Y".
    iApply wp_bind. iApply wp_set_gen_next. iFrame "G". iIntros "G".
    iApply wp_bind. iApply (wp_generic_free q [g]). iSplitL "G D I".
    { cbn [glist chain]. iExists NULL. iSplit; [|done]. iExists d, i. iFrame. }
    iApply wp_ret. iApply "K". rewrite El -app_assoc. iApply cseg_app. iFrame "L". cbn [app chain]. iExists n. iFrame "V". iExists dy, iy. iFrame.
Qed.
(** A node that is not in the list is not removed. *)
Lemma wp_generic_find_absent l : ∀ h p x q fuel (Q : _ → oprop), (List.length l < fuel)%nat → h !! q = None → isnull q = false →
  ex h (glist p (x :: l)) ∗
  (∀ t, ex h (glist p (x :: l)) -∗ <affine> ⌜∃ d i, h !! t = Some (CGen d i NULL) ∧ t ≠ NULL⌝ -∗ Q t)
  ⊢ wp (generic_find_loop fuel p q) Q.
Proof.
  induction l as [|y l IH]; intros h p x q [|fuel] Q Hf Hq Hn; try (cbn in Hf; lia); cbn [generic_find_loop].
  - iIntros "[L K]". iDestruct (ex_chain_cons_in gnode h p x [] with "L") as (m h1 h2) "(H & L & %C & %S)". destruct S as (S1 & S2 & S3).
    iDestruct (ex_chain_isnull with "L") as "[%Em L]".
    assert (∃ d i, h !! p = Some (CGen d i m) ∧ p ≠ NULL)%type as (d & i & Hp & Hpn).
    { destruct S1 as (d & i & hh & hh2 & -> & _ & [-> Hne] & _). exists d, i. split; [|done].
      eapply lookup_weaken; [|exact S2]. apply lookup_union_Some_l, lookup_singleton. }
    iApply wp_bind. iApply wp_get_gen_ex. iFrame "H". iIntros (d' i') "_ H".
    rewrite Em orb_true_r. iApply wp_ret. iApply ("K" with "[H L]"); [iApply C; iFrame|]. iPureIntro. exists d, i.
    apply Z.eqb_eq in Em. by subst m.
  - iIntros "[L K]". iDestruct (ex_chain_cons_in gnode h p x (y :: l) with "L") as (m h1 h2) "(H & L & %C & %S)". destruct S as (S1 & S2 & S3).
    iApply wp_bind. iApply wp_get_gen_ex. iFrame "H". iIntros (d' i') "_ H".
    iDestruct (ex_chain_isnull with "L") as "[%Em L]". rewrite Em.
    iAssert (<affine> ⌜Z.eqb m q = false⌝ ∗ ex h2 (chain gnode m (y :: l)))%I with "[L]" as "[%Emq L]".
    { iDestruct (ex_chain_cons_in gnode _ _ _ _ with "L") as (m2 h3 h4) "(H & L & %C' & %S)". iSplit; [|iApply C'; iFrame]. iPureIntro.
      destruct S as (T1 & T2 & T3). apply Z.eqb_neq. intros ->.
      destruct T1 as (d & i & hh & hh2 & -> & _ & [-> Hne] & _).
      assert (h !! q = Some (CGen d i m2)) as X; [|congruence].
      eapply lookup_weaken; [|exact S3]. eapply lookup_weaken; [|exact T2]. apply lookup_union_Some_l, lookup_singleton. }
    rewrite Emq. cbn [orb]. iApply (IH h2 m y q fuel); [cbn in Hf; lia| |done|].
    { destruct (h2 !! q) eqn:X; [|done]. by rewrite (lookup_weaken _ _ _ _ X S3) in Hq. }
    iFrame "L". iIntros (t) "L %Ht". iApply ("K" with "[H L]"); [iApply C; iFrame|]. iPureIntro.
    destruct Ht as (d & i & Ht & Hne). exists d, i. split; [|done]. by eapply lookup_weaken.
Qed.
Lemma wp_get_gen_at h P q d i n (Q : _ → oprop) : h !! q = Some (CGen d i n) →
  ex h P ∗ (ex h P -∗ Q (d, i, n)) ⊢ wp (get_gen q) Q.
Proof.
  intros Hq. constructor. intros hh (h1 & h2 & -> & Hd & [-> HP] & K) hf Hf.
  exists (d, i, n), (h ∪ h2). split_and!; [|done|].
  - unfold get_gen, pbind, load. by rewrite (lookup_union_Some_l _ _ _ _ (lookup_union_Some_l _ _ _ _ Hq)).
  - rewrite map_union_comm; [|done]. apply (K h); done.
Qed.
Lemma wp_generic_remove_absent h p l q (Q : _ → oprop) : h !! q = None →
  ex h (glist p l) ∗ (ex h (glist p l) -∗ Q p) ⊢ wp (osl_generic_remove_node_p p q) Q.
Proof.
  intros Hq. iIntros "[L K]". unfold osl_generic_remove_node_p. destruct (isnull q) eqn:Eq; cbn [orb].
  { iApply wp_ret. by iApply "K". }
  iDestruct (ex_chain_isnull with "L") as "[%Ep L]". rewrite Ep. destruct l as [|x l].
  { iApply wp_ret. by iApply "K". }
  iAssert (<affine> ⌜Z.eqb p q = false⌝ ∗ ex h (chain gnode p (x :: l)))%I with "[L]" as "[%Epq L]".
  { iDestruct (ex_chain_cons_in gnode _ _ _ _ with "L") as (m2 h3 h4) "(H & L & %C' & %S)". iSplit; [|iApply C'; iFrame]. iPureIntro.
    destruct S as (T1 & T2 & T3). apply Z.eqb_neq. intros ->.
    destruct T1 as (d & i & hh & hh2 & -> & _ & [-> Hne] & _).
    assert (h !! q = Some (CGen d i m2)) as X; [|congruence].
    eapply lookup_weaken; [|exact T2]. apply lookup_union_Some_l, lookup_singleton. }
  rewrite Epq. iApply wp_bind. iCombine "L K" as "R". iStopProof.
  apply (wp_loop_on (List.length (x :: l))); [apply ex_chain_size, _|]. intros k Hk. iIntros "(L & K)".
  iApply (wp_generic_find_absent l h p x q); [cbn in Hk; lia|done|done|]. iFrame "L". iIntros (t) "L %Ht".
  destruct Ht as (d & i & Ht & _). iApply wp_bind. iApply (wp_get_gen_at h); [done|]. iFrame "L". iIntros "L".
  assert (Z.eqb NULL q = false) as ->. { rewrite Z.eqb_sym. exact Eq. }
  iApply wp_ret. by iApply "K".
Qed.

(** Removal by URI: the first node with the URI goes. *)
Fixpoint gremove (u : str) (l : list gen) : list gen :=
  match l with [] => [] | g :: l' => if guri_is u g then l' else g :: gremove u l' end.
Lemma wp_generic_find_URI_loop u l : ∀ p fuel (Q : _ → oprop), (List.length l < fuel)%nat →
  glist p l ∗
  ((<affine> ⌜gremove u l = l⌝ -∗ glist p l -∗ Q NULL) ∧
   (∀ t g n l1 l2, <affine> ⌜l = l1 ++ g :: l2 ∧ gremove u l = l1 ++ l2⌝ -∗ cseg gnode p l1 t -∗ gnode t g n -∗ glist n l2 -∗ Q t))
  ⊢ wp (generic_find_URI_loop fuel p u) Q.
Proof.
  induction l as [|x l IH]; intros p [|fuel] Q Hf; try (cbn in Hf; lia); cbn [generic_find_URI_loop].
  - cbn [glist chain]. iIntros "[-> K]". rewrite isnull_null. iApply wp_ret. iDestruct "K" as "[K _]". by iApply ("K" with "[//]").
  - iIntros "[(%n & H & L) K]". iDestruct (node_nonnull gnode with "H") as "[%E H]". rewrite E.
    iDestruct (ex_intro with "H") as (hx) "H". iApply wp_bind. iApply wp_generic_has_URI. iFrame "H". iIntros "H".
    cbn [gremove]. destruct (guri_is u x) eqn:Eu.
    + iApply wp_ret. iDestruct "K" as "[_ K]". iDestruct (ex_elim with "H") as "H".
      iApply ("K" $! p x n [] l with "[//] [//] H L").
    + iApply wp_bind. iApply wp_get_gen_ex. iFrame "H". iIntros (d i) "_ H". iDestruct (ex_elim with "H") as "H".
      iApply (IH n); [cbn in Hf; lia|]. iFrame "L". iSplit.
      * iDestruct "K" as "[K _]". iIntros "%El L". iApply ("K" with "[]"); [by rewrite El|]. iExists n. iFrame.
      * iDestruct "K" as "[_ K]". iIntros (t g m l1 l2) "%El L1 G L2". destruct El as [El Er].
        iApply ("K" $! t g m (x :: l1) l2 with "[] [H L1] G L2"); [iPureIntro; split; [by rewrite El|by rewrite Er]|]. iExists n. iFrame.
Qed.
Lemma wp_generic_remove p l u (Q : _ → oprop) :
  glist p l ∗ (∀ r, glist r (gremove u l) -∗ Q r) ⊢ wp (osl_generic_remove_p p u) Q.
Proof.
  iIntros "[L K]". iApply wp_bind. iCombine "L K" as "K". iStopProof.
  apply (wp_loop_on (List.length l)); [apply chain_size, _|]. intros k Hk. iIntros "(L & K)".
  iApply (wp_generic_find_URI_loop u l p); [done|]. iFrame "L". iSplit.
  - iIntros "%El L". rewrite isnull_null. iApply wp_ret. iApply "K". by rewrite El.
  - iIntros (t g n l1 l2) "%El L1 G L2". destruct El as [-> Er]. iDestruct (node_nonnull gnode with "G") as "[%E G]". rewrite E.
    iApply (wp_generic_remove_node p l1 t g n l2). iFrame "L1 G L2". iIntros "L". iApply "K". by rewrite Er.
Qed.

Lemma wp_generic_count_loop l : ∀ h p fuel (Q : _ → oprop), (List.length l < fuel)%nat →
  ex h (glist p l) ∗ (ex h (glist p l) -∗ Q (Z.of_nat (List.length l))) ⊢ wp (generic_count_loop fuel p) Q.
Proof.
  induction l as [|x l IH]; intros h p [|fuel] Q Hf; try (cbn in Hf; lia); cbn [generic_count_loop].
  - iIntros "[L K]". iDestruct (ex_chain_isnull with "L") as "[%E L]". rewrite E. iApply wp_ret. by iApply "K".
  - iIntros "[L K]". iDestruct (ex_chain_cons with "L") as (n h1 h2) "(H & L & %C)".
    iDestruct (ex_node_nonnull with "H") as "[%E H]". rewrite E.
    iApply wp_bind. iApply wp_get_gen_ex. iFrame "H". iIntros (d i) "_ H". iApply wp_bind. iApply (IH h2); [cbn in Hf; lia|].
    iFrame "L". iIntros "L". iApply wp_ret. cbn [List.length]. rewrite Nat2Z.inj_succ -Z.add_1_r. iApply "K". iApply C. iFrame.
Qed.
Lemma wp_generic_count h p l (Q : _ → oprop) :
  ex h (glist p l) ∗ (ex h (glist p l) -∗ Q (Z.of_nat (List.length l))) ⊢ wp (osl_generic_count_p p) Q.
Proof. apply (wp_loop_on (List.length l)); [apply ex_chain_size, _|]. intros k Hk. by apply wp_generic_count_loop. Qed.

(** Copy: the nodes without interface are skipped, the others are added one by one. *)
Fixpoint gclone (c l : list gen) : option (list gen) :=
  match l with
  | [] => Some c
  | g :: l' => match g_iface g with
               | None => gclone c l'
               | Some _ => if gnew c g then gclone (c ++ [g]) l' else None
               end
  end.
Lemma wp_data_clone h h' i x d z (Q : _ → oprop) :
  ex h (ilist i [x]) ∗ ex h' (data_at d z) ∗ (∀ r, ex h (ilist i [x]) -∗ ex h' (data_at d z) -∗ data_at r z -∗ Q r)
  ⊢ wp (data_clone i d) Q.
Proof.
  iIntros "(I & D & K)". iDestruct (ex_chain_cons inode h i x [] with "I") as (m h1 h2) "(I & J & %C)".
  iApply wp_bind. iApply wp_get_iface_ex. iFrame "I". iIntros "I". iDestruct (C with "[$I $J]") as "I".
  iDestruct (ex_data_isnull with "D") as "[%E D]". rewrite E. destruct z as [z|]; cbn [data_at].
  - iApply wp_bind. iDestruct (ex_cell with "D") as "[%C2 D]". iApply wp_get_data. iFrame "D". iIntros "D". iApply wp_alloc. iIntros (r) "R".
    iApply ("K" with "I [D] R"). by iApply C2.
  - iApply wp_ret. by iApply ("K" with "I D").
Qed.
Lemma wp_generic_nclone_loop l : ∀ n h p c cl v fuel (Q : _ → oprop), (List.length l < fuel)%nat →
  gclone c (firstn (Z.to_nat n) l) = Some v →
  ex h (glist p l) ∗ glist cl c ∗ (∀ q, ex h (glist p l) -∗ glist q v -∗ Q q) ⊢ wp (generic_nclone_loop fuel p n cl) Q.
Proof.
  induction l as [|x l IH]; intros n h p c cl v [|fuel] Q Hf Hv; try (cbn in Hf; lia); cbn [generic_nclone_loop].
  - rewrite firstn_nil in Hv. injection Hv as <-. iIntros "(L & C & K)". iDestruct (ex_chain_isnull with "L") as "[%E L]".
    rewrite E. cbn [negb andb]. iApply wp_ret. iApply ("K" with "L C").
  - iIntros "(L & C & K)". iDestruct (ex_chain_isnull with "L") as "[%E L]". rewrite E. cbn [negb andb].
    destruct (Z.ltb_spec 0 n).
    + replace (Z.to_nat n) with (S (Z.to_nat (n - 1))) in Hv by lia. cbn [firstn gclone] in Hv.
      iDestruct (ex_chain_cons with "L") as (m h1 h2) "(H & L & %C)".
      iDestruct (ex_gnode with "H") as (d i hd hi) "(H & D & I & %C' & _)".
      iApply wp_bind. iApply wp_get_gen. iFrame "H". iIntros "H". iDestruct (ex_chain_isnull with "I") as "[%Ei I]". rewrite Ei.
      destruct (g_iface x) as [y|] eqn:Ex; cbn [iface_list negb].
      * destruct (gnew c x) eqn:En; [|done]. iApply wp_bind. iApply wp_bind. iApply wp_data_clone. iFrame "I D". iIntros (r) "I D R".
        iApply wp_bind. iApply (wp_interface_nclone hi i [y] (-1) [y]).
        { unfold gnew, g_uri in En. rewrite Ex in En. destruct y as [[u|] o]; [|done]. done. }
        iFrame "I". iIntros (q) "I N". iApply wp_bind. iApply wp_alloc. iIntros (nw) "NW".
        iApply (wp_generic_add cl c nw [x]); [cbn; by rewrite En|]. iFrame "C". iSplitL "R N NW".
        { cbn [glist chain]. iExists NULL. iSplit; [|done]. iExists r, q. rewrite Ex. iFrame. }
        iIntros "CL". iApply wp_bind. iApply wp_get_gen. iFrame "H". iIntros "H".
        iApply (IH (n - 1) h2 m (c ++ [x]) _ v); [cbn in Hf; lia|done|]. iFrame "L CL". iIntros (q') "L CL".
        iApply ("K" with "[H D I L] CL"). iApply C. iFrame "L". iApply C'. iFrame.
      * iApply wp_bind. iApply wp_ret. iApply wp_bind. iApply wp_get_gen. iFrame "H". iIntros "H".
        iApply (IH (n - 1) h2 m c cl v); [cbn in Hf; lia|done|]. iFrame "L C". iIntros (q') "L CL".
        iApply ("K" with "[H D I L] CL"). iApply C. iFrame "L". iApply C'. iFrame.
    + replace (Z.to_nat n) with O in Hv by lia. injection Hv as <-. iApply wp_ret. iApply ("K" with "L C").
Qed.
Definition gwanted (n : Z) (l : list gen) : list gen := if n <? 0 then l else firstn (Z.to_nat n) l.
Lemma gwanted_eq n l : gwanted n l = firstn (Z.to_nat (if n <? 0 then Z.of_nat (List.length l) else n)) l.
Proof. unfold gwanted. destruct (n <? 0); [|done]. by rewrite Nat2Z.id firstn_all. Qed.
Lemma wp_generic_nclone h p l n v (Q : _ → oprop) : gclone [] (gwanted n l) = Some v →
  ex h (glist p l) ∗ (∀ q, ex h (glist p l) -∗ glist q v -∗ Q q) ⊢ wp (osl_generic_nclone_p p n) Q.
Proof.
  rewrite gwanted_eq. intros Hv. iIntros "[L K]". iApply wp_bind.
  iAssert (wp (if n <? 0 then osl_generic_count_p p else ret n)
    (λ m, <affine> ⌜m = if n <? 0 then Z.of_nat (List.length l) else n⌝ ∗ ex h (glist p l)))%I with "[L]" as "C".
  { destruct (n <? 0); [iApply wp_generic_count; iFrame "L"; iIntros "L"; by iFrame|iApply wp_ret; by iFrame]. }
  iApply wp_wand. iFrame "C". iIntros (m) "[-> L]". iCombine "L K" as "K". iStopProof.
  apply (wp_loop_on (List.length l)); [apply ex_chain_size, _|]. intros k Hk. iIntros "[L K]".
  iApply (wp_generic_nclone_loop l _ h p [] NULL v); [done|done|]. iFrame. done.
Qed.
Lemma wpe_generic_nclone_loop l : ∀ n h p c cl fuel, (List.length l < fuel)%nat →
  gclone c (firstn (Z.to_nat n) l) = None →
  ex h (glist p l) ∗ glist cl c ⊢ wpe (generic_nclone_loop fuel p n cl).
Proof.
  induction l as [|x l IH]; intros n h p c cl [|fuel] Hf Hv; try (cbn in Hf; lia); cbn [generic_nclone_loop].
  - by rewrite firstn_nil in Hv.
  - iIntros "(L & C)". iDestruct (ex_chain_isnull with "L") as "[%E L]". rewrite E. cbn [negb andb].
    destruct (Z.ltb_spec 0 n); [|by replace (Z.to_nat n) with O in Hv by lia].
    replace (Z.to_nat n) with (S (Z.to_nat (n - 1))) in Hv by lia. cbn [firstn gclone] in Hv.
    iDestruct (ex_chain_cons with "L") as (m h1 h2) "(H & L & %C)".
    iDestruct (ex_gnode with "H") as (d i hd hi) "(H & D & I & %C' & _)".
    iApply wpe_bind. iApply wp_get_gen. iFrame "H". iIntros "H". iDestruct (ex_chain_isnull with "I") as "[%Ei I]". rewrite Ei.
    destruct (g_iface x) as [y|] eqn:Ex; cbn [iface_list negb].
    + destruct (gnew c x) eqn:En.
      * iApply wpe_bind. iApply wp_bind. iApply wp_data_clone. iFrame "I D". iIntros (r) "I D R".
        iApply wp_bind. iApply (wp_interface_nclone hi i [y] (-1) [y]).
        { unfold gnew, g_uri in En. rewrite Ex in En. destruct y as [[u|] o]; [|done]. done. }
        iFrame "I". iIntros (q) "I N". iApply wp_bind. iApply wp_alloc. iIntros (nw) "NW".
        iApply (wp_generic_add cl c nw [x]); [cbn; by rewrite En|]. iFrame "C". iSplitL "R N NW".
        { cbn [glist chain]. iExists NULL. iSplit; [|done]. iExists r, q. rewrite Ex. iFrame. }
        iIntros "CL". iApply wpe_bind. iApply wp_get_gen. iFrame "H". iIntros "H".
        iCombine "H D I" as "R". iApply wpe_frame. iSplitR "R"; [|iExact "R"].
        iApply (IH (n - 1) h2 m (c ++ [x])); [cbn in Hf; lia|done|]. iFrame.
      * iApply wpe_bind_l. iApply wpe_bind. iApply wp_data_clone. iFrame "I D". iIntros (r) "I D R".
        destruct (fst y) as [u|] eqn:Ey.
        -- iApply wpe_bind. iApply (wp_interface_nclone hi i [y] (-1) [y]).
           { change (wanted (-1) 0 [y]) with [y]. cbn [iclone app]. unfold inew. by rewrite Ey. }
           iFrame "I". iIntros (q) "I N". iApply wpe_bind. iApply wp_alloc. iIntros (nw) "NW".
           iCombine "H D I L" as "X". iApply wpe_frame. iSplitR "X"; [|iExact "X"].
           iApply (wpe_generic_add cl c nw [x]); [cbn; by rewrite En|]. iFrame "C".
           cbn [glist chain]. iExists NULL. iSplit; [|done]. iExists r, q. rewrite Ex. iFrame.
        -- iApply wpe_bind_l. iCombine "H D L C R" as "X". iApply wpe_frame. iSplitR "X"; [|iExact "X"].
           iApply (wpe_interface_nclone hi i [y] (-1)); [|done]. change (wanted (-1) 0 [y]) with [y]. cbn [iclone app]. unfold inew. by rewrite Ey.
    + iApply wpe_bind. iApply wp_ret. iApply wpe_bind. iApply wp_get_gen. iFrame "H". iIntros "H".
      iCombine "H D I" as "R". iApply wpe_frame. iSplitR "R"; [|iExact "R"].
      iApply (IH (n - 1) h2 m c cl); [cbn in Hf; lia|done|]. iFrame.
Qed.
Lemma wpe_generic_nclone h p l n : gclone [] (gwanted n l) = None → ex h (glist p l) ⊢ wpe (osl_generic_nclone_p p n).
Proof.
  rewrite gwanted_eq. intros Hv. iIntros "L". iApply wpe_bind.
  iAssert (wp (if n <? 0 then osl_generic_count_p p else ret n)
    (λ m, <affine> ⌜m = if n <? 0 then Z.of_nat (List.length l) else n⌝ ∗ ex h (glist p l)))%I with "[L]" as "C".
  { destruct (n <? 0); [iApply wp_generic_count; iFrame "L"; iIntros "L"; by iFrame|iApply wp_ret; by iFrame]. }
  iApply (wp_wand with "[C]"). iFrame "C". iIntros (m) "[-> L]". iAssert (ex h (glist p l) ∗ emp)%I with "[L]" as "L"; [by iFrame|]. iStopProof.
  apply (wpe_loop_on (List.length l)); [apply ex_chain_size, _|]. intros k Hk. iIntros "[L _]".
  iApply (wpe_generic_nclone_loop l _ h p [] NULL); [done|done|]. iFrame. done.
Qed.
End G.
