(** * FullProofs2: extensions and symbols in memory *)
From stdpp Require Import gmap.
From iris.proofmode Require Import tactics.
From Coq Require Import ZifyBool ZifyNat.
From Verif Require Import Base IntModel VectorModel RelationModel RelSpec StringsModel ExtModel ScopModel CloneSpec PropClone HeapModel HeapObjects HeapSpec HeapLogic HeapProofs PayloadModel PayloadSpec PayloadProofs PayloadProofs2 PayloadProofs3 PayloadProofs4 PayloadProofs5 PayloadProofs6 PropStrings PropHeap FullModel FullSpec FullProofs.
Local Open Scope string_scope.
Local Open Scope list_scope.
Local Open Scope Z_scope.
Local Open Scope bi_scope.
Notation loop := HeapModel.loop.

Global Instance kind_dec : EqDecision kind.
Proof. solve_decision. Defined.

(** ** Sizes *)
Fixpoint wdata (d : edata) : nat :=
  match d with DSymbols l => sumw wsym l | _ => O end
with wsym (x : symbol) : nat :=
  match x with Symbol _ _ _ a b c e => S (sumw wgen a + (sumw wgen b + (sumw wgen c + sumw wgen e)))%nat end
with wgen (g : generic) : nat :=
  match g with Generic _ (Some d) => S (wdata d) | Generic _ None => 1%nat end.
Lemma size_both (P Q : mem) a b : (M P ⊢ size_ge a) → (M Q ⊢ size_ge b) → M (P ⋆ Q) ⊢ size_ge (a + b).
Proof. intros H1 H2. rewrite M_beside. by apply size_ge_sep. Qed.
Lemma generic_size g : ∀ p n, M (m_generic p g n) ⊢ size_ge (wgen g).
Proof.
  revert g. apply (generic_all (λ d, ∀ p, M (m_data p d) ⊢ size_ge (wdata d))%type (λ x, ∀ p n, M (m_symbol p x n) ⊢ size_ge (wsym x))%type (λ g, ∀ p n, M (m_generic p g n) ⊢ size_ge (wgen g))%type).
  - intros d Hd p. destruct d; try apply size_ge_0. by destruct (Hd l).
  - intros l Hl p. cbn [m_data wdata]. by apply chain_size.
  - intros t g n a b c e Ha Hb Hc He p nx. cbn [m_symbol wsym]. apply size_somewhere. intros [[[pa pb] pc] pe].
    apply (size_both _ _ 1); [apply size_cell|]. repeat (apply size_both; [by apply chain_size|]). by apply chain_size.
  - intros i p n. cbn [m_generic wgen]. apply size_somewhere. intros [pd pi]. apply size_first, size_cell.
  - intros i d Hd p n. cbn [m_generic wgen]. apply size_somewhere. intros [pd pi]. apply (size_both _ _ 1); [apply size_cell|].
    apply (size_both _ _ 0); [apply size_ge_0|]. apply Hd.
Qed.
Lemma generics_weight p l : M (m_generics p l) ⊢ size_ge (sumw wgen l).
Proof. apply chain_size. apply List.Forall_forall. intros g _. apply generic_size. Qed.
Lemma symbol_size x : ∀ p n, M (m_symbol p x n) ⊢ size_ge (wsym x).
Proof.
  intros p n. destruct x as [t g d a b c e]. cbn [m_symbol wsym]. apply size_somewhere. intros [[[pa pb] pc] pe].
  apply (size_both _ _ 1); [apply size_cell|]. repeat (apply size_both; [apply generics_weight|]). apply generics_weight.
Qed.
Lemma symbols_weight p l : M (m_symbols p l) ⊢ size_ge (sumw wsym l).
Proof. apply chain_size. apply List.Forall_forall. intros x _. apply symbol_size. Qed.
Lemma generic_size1 p g n : M (m_generic p g n) ⊢ size_ge 1.
Proof. rewrite generic_size. apply size_ge_le. destruct g as [i [d|]]; cbn; lia. Qed.
Lemma symbol_size1 p x n : M (m_symbol p x n) ⊢ size_ge 1.
Proof. rewrite symbol_size. apply size_ge_le. destruct x; cbn; lia. Qed.
Lemma generics_length p l : M (m_generics p l) ⊢ size_ge (List.length l).
Proof. apply (chain_length_size m_generic l generic_size1). Qed.
Lemma symbols_length p l : M (m_symbols p l) ⊢ size_ge (List.length l).
Proof. apply (chain_length_size m_symbol l symbol_size1). Qed.

Section R.
Context {cfg : config} {al : Allocator obj}.
Definition m_content (p : ptr) (d : option edata) : mem := match d with None => nothing (p = NULL) | Some d => m_data p d end.
Lemma sees_generic h p i d n : sees h (m_generic p (Generic i d) n) → (∃ pd pi, h !! p = Some (CBlock (BGen pd pi n)) ∧ p ≠ NULL ∧ sees h (m_iface_opt pi i) ∧ sees h (m_content pd d))%type.
Proof. cbn [m_generic]. intros [[pd pi] H]%sees_somewhere. exists pd, pi. apply sees_beside in H as [[H1 H2]%sees_cell H]. apply sees_beside in H as [H3 H4]. done. Qed.
Lemma generic_nonnull h p g n : sees h (m_generic p g n) → p ≠ NULL.
Proof. destruct g as [i d]. by intros (pd & pi & _ & ? & _)%sees_generic. Qed.
Lemma sees_symbol h p t g d a b c e n : sees h (m_symbol p (Symbol t g d a b c e) n) → (∃ pa pb pc pe, h !! p = Some (CBlock (BSymbols t g d pa pb pc pe n)) ∧ p ≠ NULL ∧
  sees h (m_generics pa a) ∧ sees h (m_generics pb b) ∧ sees h (m_generics pc c) ∧ sees h (m_generics pe e))%type.
Proof.
  cbn [m_symbol]. intros [[[[pa pb] pc] pe] H]%sees_somewhere. exists pa, pb, pc, pe. apply sees_beside in H as [[H1 H2]%sees_cell H].
  apply sees_beside in H as [H3 H]. apply sees_beside in H as [H4 H]. apply sees_beside in H as [H5 H]. done.
Qed.
Lemma symbol_nonnull h p x n : sees h (m_symbol p x n) → p ≠ NULL.
Proof. destruct x. by intros (pa & pb & pc & pe & _ & ? & _)%sees_symbol. Qed.
Lemma iface_opt_null h p o : sees h (m_iface_opt p o) → isnull p = match o with None => true | _ => false end.
Proof. destruct o as [i|]; [intros (u & _ & H & _)%sees_iface; by apply null_ne|by intros ->%sees_nothing]. Qed.
Lemma M_iface_opt_null p o : M (m_iface_opt p o) ⊢ <affine> ⌜isnull p = match o with None => true | _ => false end⌝ ∗ M (m_iface_opt p o).
Proof. apply (M_null (λ o, match o with None => true | _ => false end) (m_iface_opt p)). intros h. apply iface_opt_null. Qed.

(** ** Freeing *)
Lemma wp_data_free p d (Q : _ → oprop) : data_kind d ≠ KSymbols → M (m_data p d) ∗ Q tt ⊢ wp (data_free (data_kind d) p) Q.
Proof.
  intros Hk. destruct d; cbn [m_data data_kind data_free].
  - apply wp_strings_free.
  - apply wp_body_free.
  - unfold m_union. rewrite M_union. apply wp_relation_free.
  - apply wp_comment_free.
  - apply wp_comment_free.
  - apply wp_null_free.
  - apply wp_scatinfos_free.
  - apply wp_scatnames_free.
  - apply wp_arrays_free.
  - apply wp_coordinates_free.
  - apply wp_comment_free.
  - apply wp_dependence_free.
  - done.
  - apply wp_extbody_free.
  - apply wp_loop_free.
  - apply wp_unroll_free.
  - apply wp_region_free.
  - apply wp_annotation_free.
Qed.
Lemma wp_data_free_null k (Q : _ → oprop) : k ≠ KSymbols → k ≠ KAnnotation → Q tt ⊢ wp (data_free k NULL) Q.
Proof. intros H1 H2. destruct k; try done; cbn [data_free]; apply wp_ret. Qed.
Lemma wp_free_loops fuel :
  ((∀ l p (Q : _ → oprop), all_of typed_generic l → (sumw wgen l < fuel)%nat → M (m_generics p l) ∗ Q tt ⊢ wp (generic_free_loop fuel p) Q) ∧
  (∀ l p (Q : _ → oprop), all_of typed_symbol l → (sumw wsym l < fuel)%nat → M (m_symbols p l) ∗ Q tt ⊢ wp (symbols_free_loop fuel p) Q))%type.
Proof.
  induction fuel as [|fuel [IHg IHs]]; split; intros l p Q Ht Hf; try lia; unfold m_generics, m_symbols; iIntros "[H K]".
  - cbn [generic_free_loop]. iDestruct (chain_null _ generic_nonnull with "H") as "[%E H]". rewrite E. destruct l as [|[i d] l].
    { iApply wp_ret. rewrite M_chain_nil. by iDestruct "H" as "_". }
    cbn [all_of] in Ht. destruct Ht as [Ht Hl]. cbn [sumw] in Hf. rewrite M_chain_cons. iDestruct "H" as (n) "[H R]". cbn [m_generic]. iDestruct "H" as (w) "H". destruct w as [pd pi].
    iDestruct "H" as "(P & I & D)". rewrite M_cell. get "P". iApply wp_bind. iDestruct (M_iface_opt_null with "I") as "[%Ei I]". rewrite Ei. destruct i as [i|].
    + iApply wp_bind. iApply wp_kind_at. cbn [m_iface_opt]. iFrame "I". iIntros "I". iApply wp_bind.
      iAssert (wp (match if_kind i with KSymbols => symbols_free_loop fuel pd | _ => data_free (if_kind i) pd end) (λ _, emp)) with "[D]" as "W".
      { destruct d as [d|]; cbn [typed_generic] in Ht.
        - destruct Ht as [Hk Ht]. destruct (decide (if_kind i = KSymbols)) as [Es|Es].
          + rewrite Es. rewrite Es in Hk. destruct d; try discriminate. cbn [m_data wgen wdata] in *. iApply (IHs l0); [done|lia|]. by iFrame.
          + rewrite -Hk. rewrite -Hk in Es. iDestruct (wp_data_free pd d (λ _, emp)%I with "[D]") as "W"; [done|by iFrame|]. destruct d; done.
        - iDestruct "D" as %->. destruct (decide (if_kind i = KSymbols)) as [Es|Es].
          + rewrite Es. iApply (IHs []); [done|cbn [wgen] in Hf; cbn; lia|]. iSplit; done.
          + iDestruct (wp_data_free_null (if_kind i) (λ _, emp)%I with "[]") as "W"; [done..|]. destruct (if_kind i); done. }
      iApply wp_wand. iFrame "W". iIntros (_) "_". iApply (wp_interface_free pi [i]). iSplitL "I"; [by iApply M_chain_one|].
      iApply wp_bind. iApply wp_free. iFrame "P". iApply (IHg l); [done|destruct d; cbn in Hf; lia|]. iFrame.
    + cbn [typed_generic] in Ht. subst d. iDestruct "D" as %->. change (isnull NULL) with true. cbn beta iota. iApply wp_ret. cbn [m_iface_opt]. iDestruct "I" as "_".
      iApply wp_bind. iApply wp_free. iFrame "P". iApply (IHg l); [done|cbn in Hf; lia|]. iFrame.
  - cbn [symbols_free_loop]. iDestruct (chain_null _ symbol_nonnull with "H") as "[%E H]". rewrite E. destruct l as [|[t g dd a b c e] l].
    { iApply wp_ret. rewrite M_chain_nil. by iDestruct "H" as "_". }
    cbn [all_of] in Ht. destruct Ht as [Ht Hl]. cbn [sumw] in Hf. rewrite M_chain_cons. iDestruct "H" as (n) "[H R]". cbn [m_symbol wsym typed_symbol] in *. iDestruct "H" as (w) "H". destruct w as [[[pa pb] pc] pe].
    iDestruct "H" as "(P & A & B & C & D)". rewrite M_cell. get "P". destruct Ht as (Ha & Hb & Hc & He).
    iApply wp_bind. iApply (IHg a); [done|lia|]. iFrame "A". iApply wp_bind. iApply (IHg b); [done|lia|]. iFrame "B". iApply wp_bind. iApply (IHg c); [done|lia|]. iFrame "C".
    iApply wp_bind. iApply (IHg e); [done|lia|]. iFrame "D". iApply wp_bind. iApply wp_free. iFrame "P". iApply (IHs l); [done|lia|]. iFrame.
Qed.
Lemma all_of_Forall {A} (P : A → Prop) l : Forall P l ↔ all_of P l.
Proof. induction l as [|x l IH]; cbn; [split; [done|constructor]|]. rewrite -IH. split; [by inversion 1|intros []; by constructor]. Qed.
Lemma wp_generic_free p l (Q : _ → oprop) : typed_generics l → M (m_generics p l) ∗ Q tt ⊢ wp (osl_generic_free_f p) Q.
Proof.
  intros Ht%all_of_Forall. apply (wp_loop_on (sumw wgen l)); [apply generics_weight|]. intros n Hn. by apply (proj1 (wp_free_loops n)).
Qed.
Lemma wp_symbols_free p l (Q : _ → oprop) : Forall typed_symbol l → M (m_symbols p l) ∗ Q tt ⊢ wp (osl_symbols_free_f p) Q.
Proof.
  intros Ht%all_of_Forall. apply (wp_loop_on (sumw wsym l)); [apply symbols_weight|]. intros n Hn. by apply (proj2 (wp_free_loops n)).
Qed.

(** ** Looking up and counting *)
Lemma wp_has_URI h p g n s (Q : _ → oprop) : sees h (m_generic p g n) → own h ∗ (own h -∗ Q (has_uri g s)) ⊢ wp (osl_generic_has_URI_f p s) Q.
Proof.
  destruct g as [i d]. intros (pd & pi & Hp & Hn & Hi & _)%sees_generic. iIntros "[H K]". getown Hp. rewrite (iface_opt_null _ _ _ Hi). destruct i as [i|].
  - destruct (sees_iface _ _ _ _ Hi) as (u & Hpi & _ & Hu). getown Hpi. iApply (wp_uri_is h u (if_uri i) s); [done|]. iFrame "H". iIntros "H". by iApply "K".
  - iApply wp_ret. by iApply "K".
Qed.
(** What lookup returns: the address of the data of the first extension with this URI *)
Fixpoint data_at (h : heap obj) (l : list generic) (s : str) (q : ptr) : Prop :=
  match l with
  | [] => q = NULL
  | g :: l' => if has_uri g s then sees h (m_content q (ScopModel.g_data g)) else data_at h l' s q
  end.
Lemma data_at_none h l s q : ¬ In (Some s) (map ScopModel.g_uri l) → data_at h l s q → q = NULL.
Proof.
  induction l as [|g l IH]; cbn [data_at List.map In]; [done|]. unfold has_uri. intros Hn. destruct (ScopModel.g_uri g) as [u|]; [|intros; apply IH; tauto].
  destruct (str_eqb u s) eqn:E; [|intros; apply IH; tauto]. apply str_eqb_eq in E. subst. exfalso. by apply Hn; left.
Qed.
Lemma data_at_lookup h l s q : data_at h l s q ↔ sees h (m_content q (osl_generic_lookup l s)).
Proof.
  induction l as [|g l IH]; cbn [data_at osl_generic_lookup].
  - cbn [m_content]. split; [|by intros ?%sees_nothing]. intros ->. exists ∅. split; [apply map_empty_subseteq|done].
  - by destruct (has_uri g s).
Qed.
Lemma wp_generic_lookup_loop h s l : ∀ p fuel (Q : _ → oprop), sees h (m_generics p l) → (List.length l < fuel)%nat →
  own h ∗ (∀ q, <affine> ⌜data_at h l s q⌝ -∗ own h -∗ Q q) ⊢ wp (generic_lookup_loop fuel p s) Q.
Proof.
  induction l as [|g l IH]; intros p [|fuel] Q Hs Hf; try (cbn in Hf; lia); cbn [generic_lookup_loop]; rewrite (sees_chain_null _ generic_nonnull _ _ _ Hs); iIntros "[H K]".
  - iApply wp_ret. by iApply ("K" with "[%]").
  - apply sees_chain_cons in Hs as (n & Hx & Hl). iApply wp_bind. iApply (wp_has_URI h p g n s); [done|]. iFrame "H". iIntros "H". destruct g as [i d].
    destruct (sees_generic _ _ _ _ _ Hx) as (pd & pi & Hp & Hn & Hi & Hd). getown Hp.
    destruct (has_uri (Generic i d) s) eqn:E.
    + iApply wp_ret. iApply ("K" with "[%] H"). cbn [data_at]. by rewrite E.
    + iApply IH; [done|cbn in Hf; lia|]. iFrame "H". iIntros (q) "%Hq H". iApply ("K" with "[%] H"). cbn [data_at]. by rewrite E.
Qed.
Lemma wp_generic_lookup h p l s (Q : _ → oprop) : sees h (m_generics p l) →
  own h ∗ (∀ q, <affine> ⌜data_at h l s q⌝ -∗ own h -∗ Q q) ⊢ wp (osl_generic_lookup_f p s) Q.
Proof.
  intros Hs. apply (wp_loop_on (List.length l)); [eapply own_size; [apply generics_length|done]|]. intros k Hk. by apply wp_generic_lookup_loop.
Qed.
Lemma wp_generic_count_loop h l : ∀ p n fuel (Q : _ → oprop), sees h (m_generics p l) → (List.length l < fuel)%nat →
  own h ∗ (own h -∗ Q (n + Z.of_nat (List.length l))) ⊢ wp (generic_count_loop fuel p n) Q.
Proof.
  induction l as [|g l IH]; intros p n [|fuel] Q Hs Hf; try (cbn in Hf; lia); cbn [generic_count_loop]; rewrite (sees_chain_null _ generic_nonnull _ _ _ Hs); iIntros "[H K]".
  - iApply wp_ret. cbn. rewrite Z.add_0_r. by iApply "K".
  - apply sees_chain_cons in Hs as (nx & Hx & Hl). destruct g as [i d]. destruct (sees_generic _ _ _ _ _ Hx) as (pd & pi & Hp & Hn & Hi & Hd). getown Hp.
    iApply IH; [done|cbn in Hf; lia|]. iFrame "H". iIntros "H". cbn [List.length]. replace (n + Z.of_nat (S (List.length l))) with (n + 1 + Z.of_nat (List.length l)) by lia. by iApply "K".
Qed.
Lemma wp_generic_count h p l (Q : _ → oprop) : sees h (m_generics p l) → own h ∗ (own h -∗ Q (Z.of_nat (List.length l))) ⊢ wp (osl_generic_count_f p) Q.
Proof.
  intros Hs. apply (wp_loop_on (List.length l)); [eapply own_size; [apply generics_length|done]|]. intros k Hk. iIntros "[H K]". iApply (wp_generic_count_loop h l); [done..|]. iFrame.
Qed.

(** ** Adding *)
Lemma wp_generic_check_loop h h' p acc l : sees h (m_generics p acc) → ∀ c fuel (Q : _ → oprop), sees h' (m_generics c l) → (List.length l < fuel)%nat →
  Forall (λ g, ∃ u, ScopModel.g_uri g = Some u ∧ ¬ In (Some u) (map ScopModel.g_uri acc))%type l →
  own h ∗ own h' ∗ (own h -∗ own h' -∗ Q tt) ⊢ wp (generic_check_loop fuel p c) Q.
Proof.
  intros Hs. induction l as [|g l IH]; intros c [|fuel] Q Hc Hf Hu; try (cbn in Hf; lia); cbn [generic_check_loop]; rewrite (sees_chain_null _ generic_nonnull _ _ _ Hc); iIntros "(O & H & K)".
  - iApply wp_ret. iApply ("K" with "O H").
  - inversion Hu as [|? ? (v & Ev & Hv) Hu']; subst. apply sees_chain_cons in Hc as (n & Hx & Hl). destruct g as [i d]. destruct (sees_generic _ _ _ _ _ Hx) as (pd & pi & Hp & Hn & Hi & Hd).
    getown Hp. rewrite (iface_opt_null _ _ _ Hi). destruct i as [i|]; [|done]. destruct (sees_iface _ _ _ _ Hi) as (u & Hpi & _ & Huri). cbn in Ev. rewrite Ev in Huri. getown Hpi.
    rewrite (m_str_null_own _ _ _ Huri). apply sees_cell in Huri as [Huri _]. iApply wp_bind. iApply wp_get_str_own; [done|]. iFrame "H". iIntros "H".
    iApply wp_bind. iApply (wp_generic_lookup h p acc v); [done|]. iFrame "O". iIntros (q) "%Hq O".
    apply data_at_none in Hq as ->; [|done]. change (isnull NULL) with true. cbn beta iota. iApply IH; [done|cbn in Hf; lia|done|]. iFrame.
Qed.
Lemma wp_set_gen_next p g n n' (Q : _ → oprop) : M (m_generic p g n) ∗ (M (m_generic p g n') -∗ Q tt) ⊢ wp (set_gen_next p n') Q.
Proof.
  destruct g as [i d]. cbn [m_generic]. iIntros "[(%w & A) K]". destruct w as [pd pi]. iDestruct "A" as "(P & A)". rewrite M_cell. get "P".
  iApply wp_put. iFrame "P". iIntros "P". iApply "K". iExists (pd, pi). iSplitL "P"; done.
Qed.
Lemma M_back (m : mem) h : m h → own h ⊢ M m.
Proof. intros H. rewrite M_own. iIntros "O". iExists h. by iFrame. Qed.
Lemma wp_generic_add p acc c l (Q : _ → oprop) : Forall (λ g, ∃ u, ScopModel.g_uri g = Some u ∧ ¬ In (Some u) (map ScopModel.g_uri acc))%type l →
  M (m_generics p acc) ∗ M (m_generics c l) ∗ (∀ q, M (m_generics q (acc ++ l)) -∗ Q q) ⊢ wp (osl_generic_add_f p c) Q.
Proof.
  intros Hu. iIntros "(P & C & K)". unfold osl_generic_add_f, m_generics. iDestruct (chain_null _ generic_nonnull with "C") as "[%Ec C]". rewrite Ec. destruct l as [|x l].
  - iApply wp_ret. iApply "K". rewrite app_nil_r. rewrite M_chain_nil. by iDestruct "C" as "_".
  - iApply wp_bind. rewrite {1}(M_own (m_chain m_generic p acc)) {1}(M_own (m_chain m_generic c (x :: l))). iDestruct "P" as (h) "[%Hh P]". iDestruct "C" as (h') "[%Hh' C]".
    iCombine "P K" as "K". iCombine "C K" as "K". iStopProof.
    apply (wp_loop_on (List.length (x :: l))); [eapply own_size; [apply (generics_length c)|by apply sees_self]|]. intros k Hk. iIntros "(C & P & K)".
    iApply (wp_generic_check_loop h h' p acc (x :: l)); [by apply sees_self|by apply sees_self|done|done|]. iFrame "P C". iIntros "P C".
    iDestruct (M_back _ _ Hh with "P") as "P". iDestruct (M_back _ _ Hh' with "C") as "C".
    iDestruct (chain_null _ generic_nonnull with "P") as "[%Ep P]". rewrite Ep. destruct acc as [|y acc].
    + iApply wp_ret. iApply "K". rewrite M_chain_nil. by iDestruct "P" as "_".
    + iApply wp_bind. iApply (wp_link_loop m_generic generic_nonnull generic_link_loop set_gen_next); [|apply wp_set_gen_next|apply generic_size1|].
      { intros f q [i d] n q' Q'. cbn [m_generic]. iIntros "[(%w & A) K]". destruct w as [pd pi]. iDestruct "A" as "(P & A)". cbn [generic_link_loop]. rewrite M_cell. get "P". iApply "K". iExists (pd, pi). iSplitL "P"; done. }
      iFrame "P C". iIntros "P". iApply wp_ret. by iApply "K".
Qed.
Lemma wp_set_symbols_next p x n n' (Q : _ → oprop) : M (m_symbol p x n) ∗ (M (m_symbol p x n') -∗ Q tt) ⊢ wp (set_symbols_next p n') Q.
Proof.
  destruct x as [t g d a b c e]. cbn [m_symbol]. iIntros "[(%w & A) K]". destruct w as [[[pa pb] pc] pe]. iDestruct "A" as "(P & A)". rewrite M_cell. get "P".
  iApply wp_put. iFrame "P". iIntros "P". iApply "K". iExists (pa, pb, pc, pe). iSplitL "P"; done.
Qed.
Lemma wp_symbols_add p acc c l (Q : _ → oprop) :
  M (m_symbols p acc) ∗ M (m_symbols c l) ∗ (∀ q, M (m_symbols q (acc ++ l)) -∗ Q q) ⊢ wp (osl_symbols_add_f p c) Q.
Proof.
  iIntros "(P & C & K)". unfold osl_symbols_add_f, m_symbols. iDestruct (chain_null _ symbol_nonnull with "P") as "[%Ep P]". rewrite Ep. destruct acc as [|y acc].
  - iApply wp_ret. iApply "K". rewrite M_chain_nil. by iDestruct "P" as "_".
  - iApply wp_bind. iApply (wp_link_loop m_symbol symbol_nonnull symbols_link_loop set_symbols_next); [|apply wp_set_symbols_next|apply symbol_size1|].
    { intros f q [t g d a b c' e] n q' Q'. cbn [m_symbol]. iIntros "[(%w & A) K]". destruct w as [[[pa pb] pc] pe]. iDestruct "A" as "(P & A)". cbn [symbols_link_loop]. rewrite M_cell. get "P".
      iApply "K". iExists (pa, pb, pc, pe). iSplitL "P"; done. }
    iFrame "P C". iIntros "P". iApply wp_ret. by iApply "K".
Qed.
End R.
