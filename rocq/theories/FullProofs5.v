(** * FullProofs5: additions that stop the process *)
From stdpp Require Import gmap.
From iris.proofmode Require Import tactics.
From Coq Require Import ZifyBool ZifyNat.
From Verif Require Import Base VectorModel RelationModel RelSpec StringsModel ExtModel HeapModel HeapObjects HeapSpec HeapLogic HeapProofs PayloadModel PayloadSpec PayloadProofs PayloadProofs2 PayloadProofs3 PayloadProofs4 PayloadProofs5 PayloadProofs6 PayloadProofs7 PropHeap ScopModel CloneSpec PropStrings FullModel FullSpec FullProofs FullProofs2 FullProofs3 FullProofs4.
Local Open Scope string_scope.
Local Open Scope list_scope.
Local Open Scope Z_scope.
Local Open Scope bi_scope.

Ltac geterr E := iApply wpe_bind; iApply wp_bind; iApply (wp_get_block_own _ _ _ _ E); iFrame "H"; iIntros "H"; iApply wp_ret.
Lemma iface_at_some h l s q : In (Some s) (map if_uri l) → iface_at h l s q → q ≠ NULL.
Proof.
  induction l as [|i l IH]; cbn; [done|]. intros Hn. destruct (if_uri i) as [u|]; cbn [uri_eqb]; [|intros; apply IH; naive_solver].
  destruct (str_eqb u s) eqn:E.
  - intros (n & H) ->. by apply iface_nonnull in H.
  - intros; apply IH; [|done]. destruct Hn as [Hn|Hn]; [|done]. simplify_eq. rewrite (proj2 (str_eqb_eq _ _) eq_refl) in E. done.
Qed.
Lemma isnull_ne q : q ≠ NULL → isnull q = false.
Proof. intros H. unfold isnull. by apply Z.eqb_neq. Qed.
Section S.
Context {cfg : config} {al : Allocator obj}.
Lemma wpe_iface_check_loop h h' p acc l : sees h (m_ifaces p acc) → ∀ c fuel, sees h' (m_ifaces c l) → (List.length l < fuel)%nat →
  Exists (λ i, if_uri i = None ∨ In (if_uri i) (map if_uri acc))%type l →
  own h ∗ own h' ⊢ wpe (iface_check_loop fuel p c).
Proof.
  intros Hs. induction l as [|x l IH]; intros c [|fuel] Hc Hf Hu; try (cbn in Hf; lia); [by inversion Hu|]; cbn [iface_check_loop]; rewrite (sees_chain_null _ iface_nonnull _ _ _ Hc); iIntros "(O & H)".
  apply sees_chain_cons in Hc as (n & Hx & Hl). destruct (sees_iface _ _ _ _ Hx) as (u & Hp & Hn & Huri). geterr Hp.
  rewrite (m_str_null_own _ _ _ Huri). destruct (if_uri x) as [v|] eqn:Ev; [|iStopProof; apply wpe_lift].
  iApply wpe_bind. iApply (wp_interface_lookup h p acc h' u v); [done..|]. iFrame "O H". iIntros (q) "%Hq O H".
  destruct (isnull q) eqn:Eq; [|iStopProof; apply wpe_lift]. iApply IH; [done|cbn in Hf; lia| |iFrame].
  inversion Hu as [? ? Hx'|]; subst; [|done]. rewrite Ev in Hx'. destruct Hx' as [?|Hin]; [done|]. apply (iface_at_some _ _ _ _ Hin) in Hq. by rewrite isnull_ne in Eq.
Qed.
Lemma wpe_interface_add p acc c l : Exists (λ i, if_uri i = None ∨ In (if_uri i) (map if_uri acc))%type l →
  M (m_ifaces p acc) ∗ M (m_ifaces c l) ⊢ wpe (osl_interface_add_f p c).
Proof.
  intros Hu. iIntros "(P & C)". unfold osl_interface_add_f. iDestruct (chain_null _ iface_nonnull with "C") as "[%Ec C]". rewrite Ec. destruct l as [|x l]; [by inversion Hu|].
  iApply wpe_bind_l. unfold m_ifaces. rewrite {1}(M_own (m_chain m_iface p acc)) {1}(M_own (m_chain m_iface c (x :: l))). iDestruct "P" as (h) "[%Hh P]". iDestruct "C" as (h') "[%Hh' C]".
  iCombine "C P" as "K". iStopProof.
  apply (wpe_loop_on (List.length (x :: l))); [eapply own_size; [apply (ifaces_size c)|by apply sees_self]|]. intros k Hk. iIntros "(C & P)".
  iApply (wpe_iface_check_loop h h' p acc (x :: l)); [by apply sees_self|by apply sees_self|done|done|iFrame].
Qed.

(** Data is at an address other than NULL, lists of no element apart. *)
Ltac at_cell := first
  [ match goal with H : sees _ (cell _ _) |- _ => apply sees_cell in H; apply H end
  | match goal with H : sees _ (_ ⋆ _) |- _ => apply sees_beside in H; destruct H as [H _]; at_cell end
  | match goal with H : sees _ (somewhere _) |- _ => apply sees_somewhere in H; destruct H as [? H]; cbv beta iota in H; at_cell end
  | match goal with H : sees _ (match ?x with pair _ _ => _ end) |- _ => destruct x; at_cell end ].
Lemma data_nonnull h p k d : clonable cfg k d → sees h (m_data p d) → p ≠ NULL.
Proof.
  intros H Hs. destruct k, d; try (destruct H; fail); cbn [m_data] in Hs.
  - destruct s; cbn [m_strings] in Hs; at_cell.
  - cbn [m_body] in Hs. at_cell.
  - destruct H as [Hu _]. destruct u as [|r u]; [done|]. destruct Hs as (h1 & _ & H1). destruct H1 as (m & n & hm & hn & Hp & _). done.
  - unfold m_comment in Hs. at_cell.
  - unfold m_comment in Hs. at_cell.
  - unfold m_null in Hs. at_cell.
  - unfold m_scatinfos in Hs. at_cell.
  - unfold m_scatnames in Hs. at_cell.
  - unfold m_arrays in Hs. at_cell.
  - unfold m_coordinates in Hs. at_cell.
  - unfold m_comment in Hs. at_cell.
  - destruct H as [Hl _]. destruct l as [|x l]; [done|]. cbn [m_dependences] in Hs. at_cell.
  - destruct H as [Hl _]. destruct l as [|x l]; [done|]. apply (sees_chain_null _ symbol_nonnull) in Hs. intros ->. done.
  - unfold m_extbody in Hs. at_cell.
  - destruct l as [|x l]; [done|]. cbn [m_loops] in Hs. at_cell.
  - destruct l as [|x l]; [done|]. cbn [m_unrolls] in Hs. at_cell.
  - destruct H as [Hl _]. destruct l as [|x l]; [done|]. cbn [m_regions] in Hs. at_cell.
  - unfold m_annotation in Hs. at_cell.
Qed.
Definition carrying (g : generic) : Prop := (clonable_generic cfg g ∧ ScopModel.g_data g ≠ None)%type.
Lemma data_at_some h l s q : Forall carrying l → In (Some s) (map ScopModel.g_uri l) → data_at h l s q → q ≠ NULL.
Proof.
  induction l as [|g l IH]; cbn [data_at List.map In]; [done|]. intros Hc Hn. inversion Hc as [|? ? [Hg Hd] Hl]; subst. destruct (has_uri g s) eqn:E.
  - destruct g as [[[[u|] k]|] [d|]]; try done. apply (data_nonnull h q k d). exact Hg.
  - intros H. apply IH; [done| |done]. destruct Hn as [Hn|Hn]; [|done]. unfold has_uri in E. rewrite Hn in E. rewrite (proj2 (str_eqb_eq _ _) eq_refl) in E. done.
Qed.
Lemma wpe_generic_check_loop h h' p acc l : sees h (m_generics p acc) → Forall carrying acc → ∀ c fuel, sees h' (m_generics c l) → (List.length l < fuel)%nat →
  Exists (λ g, ScopModel.g_uri g = None ∨ In (ScopModel.g_uri g) (map ScopModel.g_uri acc))%type l →
  own h ∗ own h' ⊢ wpe (generic_check_loop fuel p c).
Proof.
  intros Hs Ha. induction l as [|g l IH]; intros c [|fuel] Hc Hf Hu; try (cbn in Hf; lia); [by inversion Hu|]; cbn [generic_check_loop]; rewrite (sees_chain_null _ generic_nonnull _ _ _ Hc); iIntros "(O & H)".
  apply sees_chain_cons in Hc as (n & Hx & Hl). destruct g as [i d]. destruct (sees_generic _ _ _ _ _ Hx) as (pd & pi & Hp & Hn & Hi & Hd).
  geterr Hp. rewrite (iface_opt_null _ _ _ Hi). destruct i as [i|]; [|iStopProof; apply wpe_lift]. destruct (sees_iface _ _ _ _ Hi) as (u & Hpi & _ & Huri). geterr Hpi.
  rewrite (m_str_null_own _ _ _ Huri). destruct (if_uri i) as [v|] eqn:Ev; [|iStopProof; apply wpe_lift].
  apply sees_cell in Huri as [Huri _]. iApply wpe_bind. iApply wp_get_str_own; [done|]. iFrame "H". iIntros "H".
  iApply wpe_bind. iApply (wp_generic_lookup h p acc v); [done|]. iFrame "O". iIntros (q) "%Hq O".
  destruct (isnull q) eqn:Eq; [|iStopProof; apply wpe_lift]. iApply IH; [done|cbn in Hf; lia| |iFrame].
  inversion Hu as [? ? Hx'|]; subst; [|done]. change (if_uri i = None ∨ In (if_uri i) (map ScopModel.g_uri acc))%type in Hx'. rewrite Ev in Hx'. destruct Hx' as [?|Hin]; [done|].
  apply (data_at_some _ _ _ _ Ha Hin) in Hq. by rewrite isnull_ne in Eq.
Qed.
Lemma wpe_generic_add p acc c l : Forall carrying acc → Exists (λ g, ScopModel.g_uri g = None ∨ In (ScopModel.g_uri g) (map ScopModel.g_uri acc))%type l →
  M (m_generics p acc) ∗ M (m_generics c l) ⊢ wpe (osl_generic_add_f p c).
Proof.
  intros Ha Hu. iIntros "(P & C)". unfold osl_generic_add_f. iDestruct (chain_null _ generic_nonnull with "C") as "[%Ec C]". rewrite Ec. destruct l as [|x l]; [by inversion Hu|].
  iApply wpe_bind_l. unfold m_generics. rewrite {1}(M_own (m_chain m_generic p acc)) {1}(M_own (m_chain m_generic c (x :: l))). iDestruct "P" as (h) "[%Hh P]". iDestruct "C" as (h') "[%Hh' C]".
  iCombine "C P" as "K". iStopProof.
  apply (wpe_loop_on (List.length (x :: l))); [eapply own_size; [apply (generics_length c)|by apply sees_self]|]. intros k Hk. iIntros "(C & P)".
  iApply (wpe_generic_check_loop h h' p acc (x :: l)); [by apply sees_self|done|by apply sees_self|done|done|iFrame].
Qed.
End S.
