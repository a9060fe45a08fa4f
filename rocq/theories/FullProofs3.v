(** * FullProofs3: copying and removing extensions and symbols in memory *)
From stdpp Require Import gmap.
From iris.proofmode Require Import tactics.
From Coq Require Import ZifyBool ZifyNat.
From Verif Require Import Base IntModel VectorModel RelationModel RelSpec StringsModel ExtModel ScopModel CloneSpec PropClone HeapModel HeapObjects HeapSpec HeapLogic HeapProofs PayloadModel PayloadSpec PayloadProofs PayloadProofs2 PayloadProofs3 PayloadProofs4 PayloadProofs5 PayloadProofs6 PropStrings PropHeap FullModel FullSpec FullProofs FullProofs2.
Local Open Scope string_scope.
Local Open Scope list_scope.
Local Open Scope Z_scope.
Local Open Scope bi_scope.
Notation loop := HeapModel.loop.

Section R.
Context {cfg : config} {al : Allocator obj}.
Hypothesis Hc : config_ok cfg.

(** ** Copying *)
Lemma wp_data_clone h p k d (Q : _ → oprop) : k ≠ KSymbols → clonable cfg k d → sees h (m_data p d) →
  own h ∗ (∀ q, own h -∗ M (m_data q d) -∗ Q q) ⊢ wp (data_clone_leaf k p) Q.
Proof.
  intros Hk Hd Hs. destruct k, d; try (exfalso; exact Hd); cbn [clonable] in Hd; cbn [m_data data_clone_leaf] in *.
  - iIntros "[H K]". iApply wp_strings_clone; [done|]. rewrite strings_clone_same; [|done]. iFrame.
  - assert (osl_body_clone (Some b) = Some b) as E. { destruct b as [i e]. destruct Hd as [Hi He]. cbn [bo_iterators bo_expression] in *. cbn [osl_body_clone bo_iterators bo_expression]. by rewrite !no_or_array_clone. }
    iIntros "[H K]". iApply wp_body_clone; [done|]. rewrite E. iFrame.
  - unfold m_union in *. apply wp_relation_clone_own; [done|]. apply (clone_union Hc). by destruct Hd.
  - by apply wp_comment_clone.
  - by apply wp_comment_clone.
  - by apply wp_null_clone.
  - by apply wp_scatinfos_clone.
  - iIntros "[H K]". iApply wp_scatnames_clone; [done|]. rewrite no_or_array_clone; [|done]. iFrame.
  - by apply wp_arrays_clone.
  - by apply wp_coordinates_clone.
  - by apply wp_comment_clone.
  - destruct Hd as [Hne Hd]. apply wp_dependence_clone; [done|]. revert Hd. apply Forall_impl. intros x Hx. by apply (clone_union Hc).
  - done.
  - assert (osl_body_clone (eb_body e) = eb_body e) as E.
    { destruct (eb_body e) as [[i x]|]; [|done]. destruct Hd as [Hi He]. cbn [bo_iterators bo_expression] in *. cbn [osl_body_clone bo_iterators bo_expression]. by rewrite !no_or_array_clone. }
    iIntros "[H K]". iApply wp_extbody_clone; [done|]. rewrite E. destruct e. iFrame.
  - by apply wp_loop_clone.
  - by apply wp_unroll_clone.
  - destruct Hd as [Hne Hd]. by apply wp_region_clone.
  - by apply wp_annotation_clone.
Qed.
Lemma wp_data_clone_null k (Q : _ → oprop) : k ≠ KSymbols → k ≠ KAnnotation → Q NULL ⊢ wp (data_clone_leaf k NULL) Q.
Proof. intros H1 H2. destruct k; try done; cbn [data_clone_leaf]; apply wp_ret. Qed.

Lemma clonable_symbol_eq t g n a b c e : clonable_symbol cfg (Symbol t g n a b c e) →
  (clonable_generics cfg a ∧ clonable_generics cfg b ∧ clonable_generics cfg c ∧ clonable_generics cfg e)%type.
Proof. intros ([Ha Na] & [Hb Nb] & [Hcc Nc] & [He Ne]). rewrite ->fold_Forall in Ha, Hb, Hcc, He. done. Qed.
Lemma clonable_symbols_eq l : clonable cfg KSymbols (DSymbols l) → Forall (clonable_symbol cfg) l.
Proof. intros [_ H]. by rewrite ->fold_Forall in H. Qed.

Lemma wp_clone_loops h fuel :
  ((∀ l p n acc q (Q : _ → oprop), sees h (m_generics p l) → Forall (clonable_generic cfg) l → List.NoDup (map ScopModel.g_uri (acc ++ l)) → 0 ≤ n → (sumw wgen l < fuel)%nat →
    own h ∗ M (m_generics q acc) ∗ (∀ q', own h -∗ M (m_generics q' (acc ++ firstn (Z.to_nat n) l)) -∗ Q q') ⊢ wp (generic_clone_loop fuel p n q) Q) ∧
  (∀ l p n i acc q (Q : _ → oprop), sees h (m_symbols p l) → Forall (clonable_symbol cfg) l → 0 ≤ i → -1 ≤ n → (sumw wsym l < fuel)%nat →
    own h ∗ M (m_symbols q acc) ∗ (∀ q', own h -∗ M (m_symbols q' (acc ++ if n =? -1 then l else firstn (Z.to_nat (n - i)) l)) -∗ Q q') ⊢ wp (symbols_clone_loop fuel p n i q) Q))%type.
Proof.
  induction fuel as [|fuel [IHg IHs]]; split; intros l p n; [lia..| |].
  - intros acc q Q Hs Hl Hd Hn Hf. iIntros "(H & A & K)". cbn [generic_clone_loop]. rewrite (sees_chain_null _ generic_nonnull _ _ _ Hs). destruct l as [|[i d] l].
    { cbn [orb]. iApply wp_ret. rewrite firstn_nil app_nil_r. iApply ("K" with "H A"). }
    cbn [orb]. destruct (Z.ltb_spec 0 n) as [Hlt|Hge]; cbn [negb].
    2:{ iApply wp_ret. replace n with 0 by lia. cbn [Z.to_nat firstn]. rewrite firstn_O app_nil_r. iApply ("K" with "H A"). }
    inversion Hl as [|? ? Hg Hl']; subst. apply sees_chain_cons in Hs as (nx & Hx & Hr). destruct (sees_generic _ _ _ _ _ Hx) as (pd & pi & Hp & Hnn & Hi & Hdd). getown Hp.
    iApply wp_bind. rewrite (iface_opt_null _ _ _ Hi). destruct i as [[[u|] k]|]; try (by destruct d).
    iApply wp_bind. iApply (wp_kind_at_own h pi (Iface (Some u) k) NULL); [done|]. iFrame "H". iIntros "H". cbn [if_kind]. iApply wp_bind.
    iAssert (wp (match k with KSymbols => symbols_clone_loop fuel pd (-1) 0 NULL | _ => data_clone_leaf k pd end) (λ q, own h ∗ M (m_content q d))) with "[H]" as "W".
    { destruct d as [d|].
      - change (clonable cfg k d) in Hg. destruct (decide (k = KSymbols)) as [->|Hk].
        + destruct d; try (exfalso; exact Hg). iApply (IHs l0 pd (-1) 0 []); [done|by apply clonable_symbols_eq|done|done|cbn [sumw wgen wdata] in Hf; lia|]. iFrame "H". iSplitR; [done|]. iIntros (q') "H N". by iFrame.
        + iDestruct (wp_data_clone h pd k d (λ q, own h ∗ M (m_content q (Some d)))%I with "[H]") as "W"; [done..| |destruct k; done]. iFrame "H". iIntros (q') "H N". iFrame.
      - apply sees_nothing in Hdd as ->. change (k ≠ KAnnotation) in Hg. destruct (decide (k = KSymbols)) as [->|Hk].
        + iApply (IHs [] NULL (-1) 0 []); [exists ∅; split; [apply map_empty_subseteq|done]|done|done|done|cbn [sumw wgen wdata] in Hf; cbn; lia|]. iFrame "H". iSplitR; [done|]. iIntros (q') "H N". by iFrame.
        + iDestruct (wp_data_clone_null k (λ q, own h ∗ M (m_content q None))%I with "[H]") as "W"; [done..| |destruct k; done]. iFrame "H". done. }
    iApply wp_wand. iFrame "W". iIntros (x) "[H X]". iApply wp_bind. iApply (wp_interface_clone h pi [Iface (Some u) k]).
    { destruct Hi as (hs & Hsub & Hi). exists hs. split; [done|]. cbn [m_ifaces m_chain]. exists NULL. exists hs, ∅. rewrite right_id_L. split; [done|]. split; [apply map_disjoint_empty_r|]. done. }
    { by repeat constructor. } { repeat constructor. by intros []. }
    iFrame "H". iIntros (pi') "H I". iApply wp_bind. iApply wp_malloc. iIntros (new) "N". putp "N".
    iApply (wp_generic_add q acc new [Generic (Some (Iface (Some u) k)) d]).
    { constructor; [|done]. exists u. split; [done|]. rewrite map_app in Hd. cbn [List.map] in Hd. apply NoDup_remove_2 in Hd. intros Hin. apply Hd. apply in_or_app. by left. }
    iFrame "A". iSplitL "N X I". { iApply (M_chain_one m_generic). cbn [m_generic]. iExists (x, pi'). iSplitL "N"; [done|]. iSplitL "I"; [|done]. by iApply (M_chain_one m_iface). }
    iIntros (q') "A". iApply (IHg l nx (n - 1) (acc ++ [Generic (Some (Iface (Some u) k)) d])); [done|done|by rewrite -app_assoc|lia|destruct d; cbn [sumw wgen] in Hf; lia|].
    iFrame "H A". iIntros (q'') "H A". iApply ("K" with "H"). rewrite -app_assoc. cbn [app]. replace (Z.to_nat n) with (S (Z.to_nat (n - 1))) by lia. done.
  - intros i acc q Q Hs Hl Hi Hn Hf. iIntros "(H & A & K)". cbn [symbols_clone_loop]. rewrite (sees_chain_null _ symbol_nonnull _ _ _ Hs). destruct l as [|[t g dd a b c e] l].
    { cbn [orb]. iApply wp_ret. destruct (n =? -1); rewrite ?firstn_nil app_nil_r; iApply ("K" with "H A"). }
    cbn [orb]. destruct ((n =? -1) || (i <? n)) eqn:E; cbn [negb].
    2:{ iApply wp_ret. apply orb_false_iff in E as [E1 E2]. rewrite E1. apply Z.ltb_ge in E2. replace (Z.to_nat (n - i)) with O by lia. rewrite firstn_O app_nil_r. iApply ("K" with "H A"). }
    inversion Hl as [|? ? Hg Hl']; subst. apply sees_chain_cons in Hs as (nx & Hx & Hr). destruct (sees_symbol _ _ _ _ _ _ _ _ _ _ Hx) as (pa & pb & pc & pe & Hp & Hnn & Ha & Hb & Hcc & He).
    apply clonable_symbol_eq in Hg as ([Ca Na] & [Cb Nb] & [Cc Nc] & [Ce Ne]). cbn [sumw wsym] in Hf.
    iApply wp_bind. iApply wp_malloc. iIntros (new) "N". getown Hp.
    iApply wp_bind. iApply wp_generic_count; [exact Ha|]. iFrame "H". iIntros "H". iApply wp_bind. iApply (IHg a pa _ []); [done|done|done|lia|lia|]. iFrame "H". iSplitR; [done|]. rewrite Nat2Z.id firstn_all. iIntros (pa') "H XA".
    iApply wp_bind. iApply wp_generic_count; [exact Hb|]. iFrame "H". iIntros "H". iApply wp_bind. iApply (IHg b pb _ []); [done|done|done|lia|lia|]. iFrame "H". iSplitR; [done|]. rewrite Nat2Z.id firstn_all. iIntros (pb') "H XB".
    iApply wp_bind. iApply wp_generic_count; [exact Hcc|]. iFrame "H". iIntros "H". iApply wp_bind. iApply (IHg c pc _ []); [done|done|done|lia|lia|]. iFrame "H". iSplitR; [done|]. rewrite Nat2Z.id firstn_all. iIntros (pc') "H XC".
    iApply wp_bind. iApply wp_generic_count; [exact He|]. iFrame "H". iIntros "H". iApply wp_bind. iApply (IHg e pe _ []); [done|done|done|lia|lia|]. iFrame "H". iSplitR; [done|]. rewrite Nat2Z.id firstn_all. iIntros (pe') "H XE".
    putp "N". iApply wp_bind. iApply (wp_symbols_add q acc new [Symbol t g dd a b c e]). iFrame "A". iSplitL "N XA XB XC XE".
    { iApply (M_chain_one m_symbol). cbn [m_symbol]. iExists (pa', pb', pc', pe'). iSplitL "N"; [done|]. iSplitL "XA"; [done|]. iSplitL "XB"; [done|]. iSplitL "XC"; done. }
    iIntros (q') "A". iApply (IHs l nx n (i + 1) (acc ++ [Symbol t g dd a b c e])); [done|done|lia|done|lia|]. iFrame "H A". iIntros (q'') "H A". iApply ("K" with "H").
    rewrite -app_assoc. cbn [app]. destruct (Z.eqb_spec n (-1)); [done|]. assert (i < n) by lia. replace (Z.to_nat (n - i)) with (S (Z.to_nat (n - (i + 1)))) by lia. done.
Qed.
Lemma wp_generic_nclone h p l n (Q : _ → oprop) : sees h (m_generics p l) → clonable_generics cfg l →
  own h ∗ (∀ q, own h -∗ M (m_generics q (if n <? 0 then l else firstn (Z.to_nat n) l)) -∗ Q q) ⊢ wp (osl_generic_nclone_f p n) Q.
Proof.
  intros Hs [Hl Hd]. unfold osl_generic_nclone_f. iIntros "[H K]". iApply wp_bind.
  iAssert (wp (if n <? 0 then osl_generic_count_f p else ret n) (λ k, own h ∗ <affine> ⌜0 ≤ k ∧ firstn (Z.to_nat k) l = if n <? 0 then l else firstn (Z.to_nat n) l⌝)) with "[H]" as "W".
  { destruct (Z.ltb_spec n 0).
    - iApply wp_generic_count; [done|]. iFrame "H". iIntros "H". iFrame "H". iPureIntro. rewrite Nat2Z.id firstn_all. split; [lia|done].
    - iApply wp_ret. iFrame "H". done. }
  iApply wp_wand. iFrame "W". iIntros (k) "[H %Hk]". destruct Hk as [Hk Ek]. rewrite -Ek. iCombine "H K" as "K". iStopProof.
  apply (wp_loop_on (sumw wgen l)); [eapply own_size; [apply generics_weight|done]|]. intros f Hf. iIntros "[H K]".
  iApply (proj1 (wp_clone_loops h f) l p k [] NULL); [done..|]. iFrame "H". iSplitR; [done|]. iIntros (q) "H A". iApply ("K" with "H A").
Qed.
Lemma wp_generic_clone h p l (Q : _ → oprop) : sees h (m_generics p l) → clonable_generics cfg l →
  own h ∗ (∀ q, own h -∗ M (m_generics q l) -∗ Q q) ⊢ wp (osl_generic_clone_f p) Q.
Proof. intros Hs Hl. by apply (wp_generic_nclone h p l (-1)). Qed.
Lemma wp_symbols_nclone h p l n (Q : _ → oprop) : sees h (m_symbols p l) → Forall (clonable_symbol cfg) l → -1 ≤ n →
  own h ∗ (∀ q, own h -∗ M (m_symbols q (if n =? -1 then l else firstn (Z.to_nat n) l)) -∗ Q q) ⊢ wp (osl_symbols_nclone_f p n) Q.
Proof.
  intros Hs Hl Hn. apply (wp_loop_on (sumw wsym l)); [eapply own_size; [apply symbols_weight|done]|]. intros f Hf. iIntros "[H K]".
  iApply (proj2 (wp_clone_loops h f) l p n 0 [] NULL); [done..|]. iFrame "H". iSplitR; [done|]. rewrite Z.sub_0_r. iIntros (q) "H A". iApply ("K" with "H A").
Qed.
Lemma wp_symbols_clone h p l (Q : _ → oprop) : sees h (m_symbols p l) → Forall (clonable_symbol cfg) l →
  own h ∗ (∀ q, own h -∗ M (m_symbols q l) -∗ Q q) ⊢ wp (osl_symbols_clone_f p) Q.
Proof. intros Hs Hl. by apply (wp_symbols_nclone h p l (-1)). Qed.
End R.

(** ** Removing *)
Section R2.
Context {cfg : config} {al : Allocator obj}.
Fixpoint seg (p : ptr) (l : list generic) (q : ptr) : oprop :=
  match l with
  | [] => <affine> ⌜p = q⌝
  | g :: l' => ∃ n, M (m_generic p g n) ∗ seg n l' q
  end.
Lemma seg_chain l1 l2 : ∀ p q, seg p l1 q ∗ M (m_generics q l2) ⊢ M (m_generics p (l1 ++ l2)).
Proof.
  induction l1 as [|g l1 IH]; intros p q; cbn [seg app].
  - iIntros "[%E H]". by subst.
  - iIntros "[(%n & P & S) H]". unfold m_generics. rewrite (M_chain_cons _ p). iExists n. iFrame "P". iApply IH. iFrame.
Qed.
Lemma generic_cell p g n : M (m_generic p g n) ⊢ ∃ d i, p ↦ CBlock (BGen d i n) ∗ (∀ n', p ↦ CBlock (BGen d i n') -∗ M (m_generic p g n')).
Proof.
  destruct g as [i d]. cbn [m_generic]. iIntros "(%w & A)". destruct w as [pd pi]. iDestruct "A" as "[P A]". rewrite M_cell. iExists pd, pi. iFrame "P".
  iIntros (n') "P". iExists (pd, pi). iSplitL "P"; done.
Qed.
Lemma generic_ne p g n q g' n' : M (m_generic p g n) ∗ M (m_generic q g' n') ⊢ <affine> ⌜p ≠ q⌝ ∗ M (m_generic p g n) ∗ M (m_generic q g' n').
Proof.
  iIntros "[P Q]". destruct (decide (p = q)) as [->|Hne]; [|by iFrame].
  iDestruct (generic_cell with "P") as (d i) "[P W]". iDestruct (generic_cell with "Q") as (d' i') "[Q W']". iDestruct (pointsto_excl with "[P Q]") as "[]"; [by iFrame].
Qed.
(** Where the first extension with the URI is *)
Fixpoint split_at (s : str) (l : list generic) : option (list generic * generic * list generic) :=
  match l with
  | [] => None
  | g :: l' => if has_uri g s then Some ([], g, l')
               else match split_at s l' with Some (l1, x, l2) => Some (g :: l1, x, l2) | None => None end
  end.
Definition found (p t : ptr) (s : str) (l : list generic) : oprop :=
  match split_at s l with
  | None => <affine> ⌜t = NULL⌝ ∗ M (m_generics p l)
  | Some (l1, x, l2) => seg p l1 t ∗ ∃ n, M (m_generic t x n) ∗ M (m_generics n l2)
  end.
Lemma wp_find_loop s l : ∀ p fuel (Q : _ → oprop), (List.length l < fuel)%nat →
  M (m_generics p l) ∗ (∀ t, found p t s l -∗ Q t) ⊢ wp (generic_find_loop fuel p s) Q.
Proof.
  induction l as [|g l IH]; intros p [|fuel] Q Hf; try (cbn in Hf; lia); cbn [generic_find_loop]; iIntros "[P K]";
    iDestruct (chain_null _ generic_nonnull with "P") as "[%E P]"; rewrite E.
  - iApply wp_ret. iApply "K". unfold found. cbn [split_at]. by iFrame.
  - unfold m_generics. rewrite M_chain_cons. iDestruct "P" as (n) "[P R]". iApply wp_bind.
    iApply (wp_reads _ (m_generic p g n) (has_uri g s)); [intros h Q'; apply wp_has_URI|]. iFrame "P". iIntros "P". destruct (has_uri g s) eqn:Eu.
    + iApply wp_ret. iApply "K". unfold found. cbn [split_at]. rewrite Eu. cbn [seg]. iSplitR; [done|]. iExists n. iFrame.
    + iDestruct (generic_cell with "P") as (d i) "[P W]". get "P". iDestruct ("W" with "P") as "P". iApply IH; [cbn in Hf; lia|]. iFrame "R". iIntros (t) "F". iApply "K".
      unfold found. cbn [split_at]. rewrite Eu. destruct (split_at s l) as [[[l1 x] l2]|].
      * iDestruct "F" as "[S F]". iFrame "F". cbn [seg]. iExists n. iFrame.
      * iDestruct "F" as "[%Et F]". iSplitR; [done|]. unfold m_generics. rewrite M_chain_cons. iExists n. iFrame.
Qed.
Lemma wp_prev_loop t x n l : ∀ p g fuel (Q : _ → oprop), (List.length l < fuel)%nat →
  seg p (g :: l) t ∗ M (m_generic t x n) ∗ (∀ q l' y, <affine> ⌜g :: l = l' ++ [y]⌝ -∗ seg p l' q -∗ M (m_generic q y t) -∗ M (m_generic t x n) -∗ Q q) ⊢ wp (generic_prev_loop fuel p t) Q.
Proof.
  induction l as [|z l IH]; intros p g [|fuel] Q Hf; try (cbn in Hf; lia); cbn [seg generic_prev_loop]; iIntros "((%m & P & S) & T & K)".
  - iDestruct "S" as %->. iDestruct (generic_cell with "P") as (d i) "[P W]". get "P". iDestruct ("W" with "P") as "P". rewrite Z.eqb_refl. cbn [orb]. iApply wp_ret. iApply ("K" $! p [] g with "[%//] [%//] P T").
  - iDestruct (generic_cell with "P") as (d i) "[P W]". get "P". iDestruct ("W" with "P") as "P".
    iAssert (<affine> ⌜m ≠ t⌝ ∗ <affine> ⌜isnull m = false⌝ ∗ seg m (z :: l) t ∗ M (m_generic t x n)) with "[S T]" as "(%Hm & %Hz & S & T)".
    { cbn [seg]. iDestruct "S" as (m') "[M S]". iDestruct (generic_ne m z m' t x n with "[M T]") as "(%Hne & M & T)"; [by iFrame|]. iDestruct (one_null _ generic_nonnull with "M") as "[%Hm M]".
      iFrame "T". iSplitR; [done|]. iSplitR; [done|]. iExists m'. iFrame. }
    rewrite (proj2 (Z.eqb_neq m t)); [|done]. rewrite Hz. cbn [orb]. iApply (IH m z); [cbn in Hf; lia|]. iFrame "S T". iIntros (q l' y) "%El S Y T".
    iApply ("K" $! q (g :: l') y with "[%] [P S] Y T"); [by rewrite El|]. cbn [seg]. iExists m. iFrame.
Qed.
Lemma seg_size l : ∀ p q, seg p l q ⊢ size_ge (List.length l).
Proof.
  induction l as [|g l IH]; intros p q; cbn [seg List.length]; [apply size_ge_0|]. iIntros "(%n & H)". iStopProof. apply (size_ge_sep _ _ 1); [apply generic_size1|apply IH].
Qed.
Lemma wp_remove_node p t x l1 l2 n (Q : _ → oprop) : typed_generic x →
  seg p l1 t ∗ M (m_generic t x n) ∗ M (m_generics n l2) ∗ (∀ q, M (m_generics q (l1 ++ l2)) -∗ Q q) ⊢ wp (osl_generic_remove_node_f p t) Q.
Proof.
  intros Hx. iIntros "(S & T & R & K)". unfold osl_generic_remove_node_f. iDestruct (one_null _ generic_nonnull with "T") as "[%Et T]". rewrite Et. cbn [orb]. destruct l1 as [|g l1].
  - cbn [seg]. iDestruct "S" as %->. rewrite Et Z.eqb_refl. iDestruct (generic_cell with "T") as (d i) "[P W]". get "P". iDestruct ("W" with "P") as "P".
    iApply wp_bind. iApply wp_set_gen_next. iFrame "P". iIntros "P". iApply wp_bind. iApply (wp_generic_free t [x]); [by constructor|]. iSplitL "P"; [by iApply (M_chain_one m_generic)|].
    iApply wp_ret. by iApply "K".
  - iAssert (<affine> ⌜p ≠ t⌝ ∗ <affine> ⌜isnull p = false⌝ ∗ seg p (g :: l1) t ∗ M (m_generic t x n)) with "[S T]" as "(%Hm & %Hz & S & T)".
    { cbn [seg]. iDestruct "S" as (m') "[M S]". iDestruct (generic_ne p g m' t x n with "[M T]") as "(%Hne & M & T)"; [by iFrame|]. iDestruct (one_null _ generic_nonnull with "M") as "[%Hm M]".
      iFrame "T". iSplitR; [done|]. iSplitR; [done|]. iExists m'. iFrame. }
    rewrite Hz (proj2 (Z.eqb_neq p t)); [|done]. iApply wp_bind. iCombine "T R K" as "K". iCombine "S K" as "K". iStopProof.
    apply (wp_loop_on (List.length (g :: l1))); [apply seg_size|]. intros k Hk. iIntros "(S & T & R & K)". iApply (wp_prev_loop t x n l1 p g); [cbn in Hk; lia|]. iFrame "S T". iIntros (q l' y) "%El S Y T".
    iDestruct (generic_cell with "Y") as (d i) "[P W]". get "P". iDestruct ("W" with "P") as "Y". rewrite Z.eqb_refl. iDestruct (generic_cell with "T") as (d' i') "[P W]". get "P". iDestruct ("W" with "P") as "T".
    iApply wp_bind. iApply wp_set_gen_next. iFrame "Y". iIntros "Y". iApply wp_bind. iApply wp_set_gen_next. iFrame "T". iIntros "T".
    iApply wp_bind. iApply (wp_generic_free t [x]); [by constructor|]. iSplitL "T"; [by iApply (M_chain_one m_generic)|]. iApply wp_ret. iApply "K".
    rewrite El -app_assoc. iApply seg_chain. iFrame "S". cbn [app]. unfold m_generics. rewrite (M_chain_cons _ q). iExists n. iFrame.
Qed.
Fixpoint without (s : str) (l : list generic) : list generic :=
  match l with [] => [] | g :: l' => if has_uri g s then l' else g :: without s l' end.
Lemma without_split s l : without s l = match split_at s l with Some (l1, _, l2) => l1 ++ l2 | None => l end.
Proof.
  induction l as [|g l IH]; [done|]. cbn [without split_at]. destruct (has_uri g s); [done|]. rewrite IH. by destruct (split_at s l) as [[[l1 x] l2]|].
Qed.
Lemma split_typed s l l1 x l2 : split_at s l = Some (l1, x, l2) → typed_generics l → typed_generic x.
Proof.
  revert l1. induction l as [|g l IH]; intros l1; [done|]. cbn [split_at]. destruct (has_uri g s).
  - intros E H. injection E as _ E _. subst. by inversion H.
  - destruct (split_at s l) as [[[a y] b]|]; [|done]. intros E H. injection E as _ E1 E2. subst. inversion H; subst. by eapply IH.
Qed.
Lemma wp_generic_remove p l s (Q : _ → oprop) : typed_generics l → M (m_generics p l) ∗ (∀ q, M (m_generics q (without s l)) -∗ Q q) ⊢ wp (osl_generic_remove_f p s) Q.
Proof.
  intros Ht. unfold osl_generic_remove_f. iIntros "[P K]". iApply wp_bind. iCombine "P K" as "K". iStopProof. apply (wp_loop_on (List.length l)); [apply generics_length|]. intros k Hk. iIntros "[P K]".
  iApply (wp_find_loop s l); [done|]. iFrame "P". iIntros (t) "F". unfold found. rewrite without_split. destruct (split_at s l) as [[[l1 x] l2]|] eqn:E.
  - iDestruct "F" as "(S & %n & T & R)". iDestruct (one_null _ generic_nonnull with "T") as "[%Et T]". rewrite Et. iApply (wp_remove_node p t x l1 l2 n); [by eapply split_typed|]. iFrame.
  - iDestruct "F" as "[%Et F]". subst t. change (isnull NULL) with true. cbn beta iota. iApply wp_ret. by iApply "K".
Qed.
End R2.
