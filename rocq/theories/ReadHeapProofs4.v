(** * ReadHeapProofs4: the readers in memory, registries, symbols and extensions *)
From stdpp Require Import gmap.
From iris.proofmode Require Import tactics.
From Coq Require Import ZifyBool ZifyNat.
From Verif Require Import Base IntModel VectorModel RelationModel UtilModel StringsModel RelTextModel ExtModel HeapModel HeapObjects HeapSpec HeapLogic HeapProofs PayloadModel PayloadSpec PayloadProofs PayloadProofs2 PayloadProofs3 PayloadProofs4 PayloadProofs5 PayloadProofs6 MatProofs MatProofs4 IrregHeapProofs ScopModel PropStrings FullModel FullSpec FullProofs FullProofs2 FullProofs5 ReadHeapModel ReadHeapSpec ReadHeapProofs ReadHeapProofs2 ReadHeapProofs3.
Local Open Scope string_scope.
Local Open Scope list_scope.
Local Open Scope Z_scope.
Local Open Scope bi_scope.

(** ** Lost strings *)
Lemma m_lost_nil : emp ⊢ M (m_lost []).
Proof. cbn [m_lost]. rewrite M_nothing. by iIntros. Qed.
Lemma m_lost_app a b : M (m_lost a) ∗ M (m_lost b) ⊢ M (m_lost (a ++ b)).
Proof.
  induction a as [|t a IH]; cbn [m_lost app].
  - rewrite M_nothing. iIntros "[_ $]".
  - rewrite !M_beside. iIntros "[[$ A] B]". iApply IH. iFrame.
Qed.
Lemma m_lost_one p t : M (m_str p (Some t)) ⊢ M (m_lost [t]).
Proof. iIntros "H". cbn [m_lost]. rewrite M_beside M_nothing. iSplitL; [|done]. rewrite M_somewhere. by iExists p. Qed.

Section READ.
Context {cfg : config} {al : Allocator obj}.
Variable env : option str.

(** ** Registries *)
Lemma iface_found h l s q : iface_at h l s q →
  match osl_interface_lookup l s with None => q = NULL | Some i => (∃ n, sees h (m_iface q i n)) ∧ if_uri i = Some s end%type.
Proof.
  induction l as [|i l IH]; cbn [iface_at osl_interface_lookup]; [done|]. unfold uri_eqb. destruct (if_uri i) as [u|] eqn:E; [|done].
  destruct (str_eqb u s) eqn:Es; [|done]. apply PropStrings.str_eqb_eq in Es. subst u. done.
Qed.
Lemma wp_nclone_one h p i n (Q : _ → oprop) : sees h (m_iface p i n) → if_uri i ≠ None →
  own h ∗ (∀ q, own h -∗ M (m_iface q i NULL) -∗ Q q) ⊢ wp (osl_interface_nclone_f p 1) Q.
Proof.
  intros Hs Hu. apply (wp_loop_on 1). { eapply own_size; [apply (iface_size p i n)|done]. }
  intros [|[|k]] Hk; [lia..|]. iIntros "[H K]". cbn [iface_nclone_loop]. rewrite (isnull_ne _ (iface_nonnull _ _ _ _ Hs)).
  change (Z.eqb 1 (-1) || Z.ltb 0 1)%bool with true. change (Z.eqb 1 (-1) || Z.ltb (0 + 1) 1)%bool with false. cbn beta iota.
  destruct (sees_iface _ _ _ _ Hs) as (u & Hp & Hnn & Huri).
  iApply wp_bind. iApply wp_malloc. iIntros (new) "N". getown Hp. iApply wp_bind. iApply wp_OSL_strdup; [done|]. iFrame "H". iIntros (u') "H U". putp "N".
  iApply wp_bind. iApply (wp_interface_add NULL [] new [i]).
  { constructor; [|done]. destruct (if_uri i) as [v|]; [|done]. exists v. split; [done|]. intros []. }
  iSplitR. { unfold m_ifaces. by rewrite M_chain_nil. }
  iSplitL "N U". { iApply M_chain_one. iExists u'. iSplitL "N"; done. }
  iIntros (q') "A". cbn [app]. unfold m_ifaces. rewrite -M_chain_one.
  destruct (isnull n); iApply wp_ret; iApply ("K" with "H A").
Qed.
Lemma wp_new_interface i (Q : _ → oprop) : (∀ p, M (m_iface p i NULL) -∗ Q p) ⊢ wp (new_interface_h i) Q.
Proof.
  iIntros "K". unfold new_interface_h. iApply wp_bind. iApply wp_malloc. iIntros (p) "P". destruct i as [[t|] k]; cbn [if_uri if_kind].
  - iApply wp_bind. iApply wp_malloc. iIntros (u) "U". putp "P". iApply wp_ret. iApply "K". unfold m_iface. rewrite M_somewhere. iExists u. cbn [m_str if_uri if_kind]. rewrite M_beside !M_cell. iFrame.
  - putp "P". iApply wp_ret. iApply "K". unfold m_iface. rewrite M_somewhere. iExists NULL. rewrite M_beside M_cell. cbn [m_str if_uri if_kind]. rewrite M_nothing. by iFrame.
Qed.
Lemma wp_add_interfaces l : ∀ p acc (Q : _ → oprop), Forall (λ i, if_uri i ≠ None) l → List.NoDup (map if_uri (acc ++ l)) →
  M (m_ifaces p acc) ∗ (∀ q, M (m_ifaces q (acc ++ l)) -∗ Q q) ⊢ wp (add_interfaces_h p l) Q.
Proof.
  induction l as [|i l IH]; intros p acc Q Hu Hd; cbn [add_interfaces_h]; iIntros "[P K]".
  - rewrite app_nil_r. iApply wp_ret. by iApply "K".
  - inversion Hu as [|? ? Hi Hu']; subst. iApply wp_bind. iApply wp_new_interface. iIntros (q) "I". iApply wp_bind. iApply (wp_interface_add p acc q [i]).
    { constructor; [|done]. destruct (if_uri i) as [v|] eqn:Ev; [|done]. exists v. split; [done|]. rewrite map_app in Hd. cbn [List.map] in Hd. apply NoDup_remove_2 in Hd. rewrite Ev in Hd. intros Hin. apply Hd. apply in_or_app. by left. }
    iFrame "P". iSplitL "I". { by iApply M_chain_one. } iIntros (r) "R". iApply (IH r (acc ++ [i])); [done|by rewrite -app_assoc|]. iFrame "R". iIntros (q') "A". iApply "K". by rewrite -app_assoc.
Qed.
Lemma default_ok : registry_ok default_registry.
Proof.
  split; [by repeat constructor|]. unfold default_registry. cbn [List.map osl_interface_of if_uri]. vm_compute.
  repeat (constructor; [cbn [In]; intros H; repeat destruct H as [H|H]; try discriminate H; try done|]). constructor.
Qed.
Lemma wp_default_registry (Q : _ → oprop) : (∀ q, M (m_ifaces q default_registry) -∗ Q q) ⊢ wp osl_interface_get_default_registry_h Q.
Proof.
  iIntros "K". destruct default_ok as [Hu Hd]. iApply (wp_add_interfaces default_registry NULL []); [done..|]. iSplitR; [unfold m_ifaces; by rewrite M_chain_nil|]. iExact "K".
Qed.

(** ** Reading one extension: what the reader [one] must do *)
Definition one_spec (one : str → res (option generic * str)) (lost : str → list str) (R : list interf) (oneh : ptr → str → oprog (ptr * str)) : Prop :=
  ∀ h reg s Q, sees h (m_ifaces reg R) →
    (own h ∗ (∀ p g s', own h -∗ M (m_generics p (node g)) -∗ M (m_lost (lost s)) -∗ Q (g, s') (p, s')))%I ⊢ sim (one s) (oneh reg s) Q.

Section SYMBOLS.
Variables (one : str → res (option generic * str)) (lost : str → list str) (R : list interf) (oneh : ptr → str → oprog (ptr * str)).
Hypothesis Hone : one_spec one lost R oneh.
Lemma sim_one h reg s Q : sees h (m_ifaces reg R) →
  own h ∗ (∀ p g s', <affine> ⌜one s = Ok (g, s')⌝ -∗ own h -∗ M (m_generics p (node g)) -∗ M (m_lost (lost s)) -∗ Q (g, s') (p, s')) ⊢ sim (one s) (oneh reg s) Q.
Proof.
  intros Hs. iIntros "[H K]". iApply sim_eq. iApply Hone; [done|]. iFrame "H". iIntros (p g s') "H G L %E". iApply ("K" with "[//] H G L").
Qed.
Lemma sim_read_string_eq s Q : (∀ p t s', <affine> ⌜osl_util_read_string_s s = Ok (t, s')⌝ -∗ p ↦ CBlock (BStr t) -∗ Q (t, s') (p, s')) ⊢ sim (osl_util_read_string_s s) (osl_util_read_string_h s) Q.
Proof. iIntros "K". iApply sim_eq. iApply sim_read_string. iIntros (p t s') "P E". iApply ("K" with "E P"). Qed.
Lemma sim_symbol_fill h reg b p s Q : sees h (m_ifaces reg R) →
  own h ∗ p ↦ CBlock b ∗ (∀ x s', own h -∗ M (m_symbol p x NULL) -∗ M (m_lost (lost_symbol one lost s)) -∗ Q (x, s') s') ⊢
  sim (symbol_sread_one one s) (symbol_fill_h (oneh reg) p s) Q.
Proof.
  intros Hs. iIntros "(H & P & K)". unfold symbol_sread_one, symbol_fill_h. iApply sim_bind. iApply sim_read_string_eq. iIntros (ty t s1) "%E1 T".
  iApply sim_heap. iApply wp_get_str. iFrame "T". iIntros "T". iApply sim_heap. iApply wp_free. iFrame "T".
  iApply sim_read. iIntros ([gen s2]) "%E2". iApply sim_read. iIntros ([dims s3]) "%E3".
  iApply sim_bind. iApply sim_one; [done|]. iFrame "H". iIntros (pa a s4) "%E4 H A LA".
  iApply sim_bind. iApply sim_one; [done|]. iFrame "H". iIntros (pb b' s5) "%E5 H B LB".
  iApply sim_bind. iApply sim_one; [done|]. iFrame "H". iIntros (pc c s6) "%E6 H C LC".
  iApply sim_bind. iApply sim_one; [done|]. iFrame "H". iIntros (pe e s7) "%E7 H E LE".
  sput "P". iApply sim_ret. iApply ("K" with "H [P A B C E]").
  - cbn [m_symbol]. rewrite M_somewhere. iExists (pa, pb, pc, pe). rewrite M_beside M_cell. iFrame "P". rewrite M_beside. iFrame "A". rewrite M_beside. iFrame "B". rewrite M_beside. iFrame.
  - unfold lost_symbol. rewrite E1. unfold after. rewrite E2 E3 E4 E5 E6. iApply m_lost_app. iFrame "LA". iApply m_lost_app. iFrame "LB". iApply m_lost_app. iFrame.
Qed.
Lemma sim_symbols_fill h reg k : sees h (m_ifaces reg R) → ∀ b p s Q,
  own h ∗ p ↦ CBlock b ∗ (∀ l s', <affine> ⌜l ≠ []⌝ -∗ own h -∗ M (m_symbols p l) -∗ M (m_lost (lost_symbols_loop one lost (S k) s)) -∗ Q (l, s') s') ⊢
  sim (symbols_sread_loop one (S k) s) (symbols_fill_h (oneh reg) (S k) p s) Q.
Proof.
  intros Hs. induction k as [|k IH]; intros b p s Q; iIntros "(H & P & K)"; cbn [symbols_sread_loop symbols_fill_h]; unfold m_symbols;
    iApply sim_bind; iApply sim_eq; (iApply sim_symbol_fill; [done|]); iFrame "H P"; iIntros (x s1) "H X L %E".
  - iApply sim_ret. iApply ("K" $! [x] s1 with "[//] H [X]"). { by iApply M_chain_one. }
    cbn [lost_symbols_loop]. rewrite E. cbn [after]. by rewrite app_nil_r.
  - mal n "N". iApply sim_heap. iApply wp_set_symbols_next. iFrame "X". iIntros "X". iApply sim_tail. iApply (IH _ n with "[-]"). iFrame "H N".
    iIntros (l s') "_ H R L'". iApply sim_ret. iApply ("K" $! (x :: l) s' with "[//] H [X R]"). { rewrite M_chain_cons. iExists n. iFrame. }
    remember (S k) as k' eqn:Ek. cbn [lost_symbols_loop]. rewrite E. cbn [after]. iApply m_lost_app. iFrame.
Qed.
End SYMBOLS.
(** The symbols: the registry is the default one, built and released by the reader. *)
Lemma sim_symbols_sread one lost oneh s Q : one_spec one lost default_registry oneh →
  (∀ p l s', M (m_symbols p l) -∗ M (m_lost (lost_symbols one lost s)) -∗ Q (l, s') (p, s')) ⊢ sim (symbols_sread_with one s) (symbols_sread_with_h oneh s) Q.
Proof.
  intros Hone. iIntros "K". unfold symbols_sread_with, symbols_sread_with_h. destruct (Z.ltb MAX_STRING (zlength s)); [iStopProof; apply sim_err|].
  iApply sim_read. iIntros ([nb s1]) "%E". destruct (Z.ltb_spec nb 0); [iStopProof; apply sim_err|].
  unfold lost_symbols. rewrite E. destruct (Z.eqb_spec nb 0) as [->|Hn].
  - iApply sim_ret. iApply ("K" with "[]"); [|by iApply m_lost_nil]. unfold m_symbols. by rewrite M_chain_nil.
  - mal p "P". iApply sim_heap. iApply wp_default_registry. iIntros (reg) "R". destruct (Z.to_nat nb) as [|k] eqn:Ek; [lia|].
    rewrite {1}(M_own (m_ifaces reg default_registry)). iDestruct "R" as (h) "[%Hh R]".
    rewrite -(bind_ok (symbols_sread_loop _ _ _)). iApply sim_bind. iApply (sim_symbols_fill one lost default_registry oneh Hone h reg k); [by apply sees_self|]. iFrame "R P".
    iIntros (l s2) "_ R S L". iApply sim_heap. iApply wp_interface_free. iSplitL "R". { by iApply (M_back _ _ Hh). } iApply sim_ret. iApply ("K" with "S L").
Qed.

(** ** The data of an extension *)
Lemma content_list {A} (f : list A → edata) (m : ptr → list A → mem) p l : (∀ l, m_data p (f l) = m p l) → (M (m p []) ⊢ <affine> ⌜p = NULL⌝) →
  M (m p l) ⊢ M (m_content p (some_list f l)).
Proof. intros H H0. destruct l as [|x l]; cbn [some_list m_content]; [by rewrite M_nothing|by rewrite H]. Qed.
Definition lost_data (one : str → res (option generic * str)) (lost : str → list str) (k : kind) (content : option str) : list str :=
  match k, content with KSymbols, Some s => lost_symbols one lost s | _, _ => [] end.
Lemma sim_data_sread one lost oneh k content c Q : one_spec one lost default_registry oneh →
  M (m_str c content) ∗ (∀ p o, M (m_str c content) -∗ M (m_content p o) -∗ M (m_lost (lost_data one lost k content)) -∗ Q o p) ⊢
  sim (data_sread env one k content) (data_sread_h env oneh k c) Q.
Proof.
  intros Hone. iIntros "[C K]". unfold data_sread_h. destruct content as [s|]; cbn [m_str].
  2: { iEval (rewrite M_nothing) in "C". iDestruct "C" as %->. rewrite isnull_null.
    destruct k; cbn [data_sread lost_data]; first [iStopProof; apply sim_UB|iApply sim_ret; iApply ("K" $! NULL None with "[] [] []"); [by rewrite M_nothing|cbn [m_content]; by rewrite M_nothing|by iApply m_lost_nil]]. }
  iEval (rewrite M_cell) in "C". iDestruct (isnull_false with "C") as "[%En C]". rewrite En. iApply sim_heap. iApply wp_get_str. iFrame "C". iIntros "C".
  iAssert (∀ p o, M (m_content p o) -∗ M (m_lost (lost_data one lost k (Some s))) -∗ Q o p) with "[C K]" as "K".
  { iIntros (p o) "D L". iApply ("K" with "[C] D L"). by rewrite M_cell. }
  destruct k; cbn [data_sread lost_data]; unfold drop; iApply sim_bind.
  - iApply sim_strings_sread. iIntros (p o e) "X". iApply sim_ret. iApply ("K" with "[X]"); [|by iApply m_lost_nil]. destruct o as [o|]; cbn [option_map m_content m_data]; [done|]. cbn [m_strings]. done.
  - iApply sim_body_sread. iIntros (p x s') "X". iApply sim_ret. iApply ("K" $! p (Some (DBody x)) with "X"). by iApply m_lost_nil.
  - iApply sim_psread. iIntros (p x s') "_ X". iApply sim_ret. iApply ("K" with "[X]"); [|by iApply m_lost_nil]. iApply (content_list DRelation m_union); [done| |].
    { rewrite M_union. by cbn [runion]. } by rewrite M_union.
  - iApply sim_textual_sread. iIntros (p x s') "X". iApply sim_ret. iApply ("K" $! p (Some (DTextual x)) with "X"). by iApply m_lost_nil.
  - iApply sim_comment_sread. iIntros (p x s') "X". iApply sim_ret. iApply ("K" $! p (Some (DComment x)) with "X"). by iApply m_lost_nil.
  - iApply sim_null_sread. iIntros (p s') "X". iApply sim_ret. iApply ("K" $! p (Some DNull) with "X"). by iApply m_lost_nil.
  - iApply sim_scatinfos_sread. iIntros (p x s') "X". iApply sim_ret. iApply ("K" $! p (Some (DScatinfos x)) with "X"). by iApply m_lost_nil.
  - iApply sim_scatnames_sread. iIntros (p x s') "X". iApply sim_ret. iApply ("K" with "[X]"); [|by iApply m_lost_nil]. destruct x as [x|]; cbn [option_map m_content m_data]; [done|]. by rewrite M_nothing.
  - iApply sim_arrays_sread. iIntros (p x s') "X". iApply sim_ret. iApply ("K" $! p (Some (DArrays x)) with "X"). by iApply m_lost_nil.
  - iApply sim_coordinates_sread. iIntros (p x s') "X". iApply sim_ret. iApply ("K" $! p (Some (DCoordinates x)) with "X"). by iApply m_lost_nil.
  - iApply sim_clay_sread. iIntros (p x s') "X". iApply sim_ret. iApply ("K" $! p (Some (DClay x)) with "X"). by iApply m_lost_nil.
  - iApply sim_dependence_psread. iIntros (p x s') "X". iApply sim_ret. iApply ("K" with "[X]"); [|by iApply m_lost_nil]. iApply (content_list DDependence m_dependences); [done| |done]. cbn [m_dependences]. by rewrite M_nothing.
  - iApply (sim_symbols_sread one lost oneh); [done|]. iIntros (p x s') "X L". iApply sim_ret. iApply ("K" with "[X] L"). iApply (content_list DSymbols m_symbols); [done| |done]. unfold m_symbols. by rewrite M_chain_nil.
  - iApply sim_extbody_sread. iIntros (p x s') "X". iApply sim_ret. iApply ("K" $! p (Some (DExtbody x)) with "X"). by iApply m_lost_nil.
  - iApply sim_loop_sread. iIntros (p x s') "X". iApply sim_ret. iApply ("K" with "[X]"); [|by iApply m_lost_nil]. iApply (content_list DLoop m_loops); [done| |done]. cbn [m_loops]. by rewrite M_nothing.
  - iApply sim_unroll_sread. iIntros (p x s') "X". iApply sim_ret. iApply ("K" with "[X]"); [|by iApply m_lost_nil]. iApply (content_list DPlutoUnroll m_unrolls); [done| |done]. cbn [m_unrolls]. by rewrite M_nothing.
  - iApply sim_region_sread. iIntros (p x s') "X". iApply sim_ret. iApply ("K" with "[X]"); [|by iApply m_lost_nil]. iApply (content_list DRegion m_regions); [done| |done]. cbn [m_regions]. by rewrite M_nothing.
  - iApply sim_annotation_sread. iIntros (p x s') "X". iApply sim_ret. iApply ("K" $! p (Some (DAnnotation x)) with "X"). by iApply m_lost_nil.
Qed.

(** ** One extension *)
Lemma wp_free_mstr p o (Q : _ → oprop) : M (m_str p o) ∗ Q tt ⊢ wp (free p) Q.
Proof. apply wp_free_str. Qed.
Lemma sim_make_generic one lost oneh h reg R tag t content c Q : one_spec one lost default_registry oneh → sees h (m_ifaces reg R) →
  own h ∗ M (m_str tag (Some t)) ∗ M (m_str c content) ∗
  (∀ p g, own h -∗ M (m_generics p (node g)) -∗ M (m_lost (lost_in_extension one lost R t content)) -∗ Q g p) ⊢
  sim (make_generic env one R t content) (make_generic_h env oneh reg tag c) Q.
Proof.
  intros Hone Hs. iIntros "(H & T & C & K)". unfold make_generic_h, make_generic. iApply sim_heap.
  rewrite {1}(M_own (m_str tag (Some t))). iDestruct "T" as (ht) "[%Ht T]".
  iApply (wp_interface_lookup h reg R ht tag t); [done|by apply sees_self|]. iFrame "H T". iIntros (q) "%Hq H T".
  iDestruct (M_back _ _ Ht with "T") as "T".
  apply iface_found in Hq. unfold lost_in_extension. destruct (osl_interface_lookup R t) as [i|] eqn:El.
  - destruct Hq as [(n & Hi) Hu]. rewrite (isnull_ne _ (iface_nonnull _ _ _ _ Hi)).
    rewrite -(bind_ok (bind _ _)). iApply sim_bind. mal g "G". iApply sim_heap. iApply (wp_nclone_one h q i n); [done|by rewrite Hu|]. iFrame "H". iIntros (qi) "H I". sput "G".
    iApply sim_heap. iApply (wp_kind_at_own h q i n); [done|]. iFrame "H". iIntros "H".
    iApply sim_bind. iApply (sim_data_sread one lost oneh); [done|]. iFrame "C". iIntros (p o) "C D L". sput "G". iApply sim_ret.
    iApply sim_heap. iApply wp_free_mstr. iFrame "C". iApply sim_heap. iApply wp_free_mstr. iFrame "T". iApply sim_ret. iApply ("K" with "H [G I D] [L]").
    + cbn [node]. iApply M_chain_one. cbn [m_generic]. rewrite M_somewhere. iExists (p, qi). rewrite M_beside M_cell M_beside. iFrame "G I". done.
    + destruct i as [u k]. cbn [if_kind lost_data]. destruct k, content; done.
  - subst q. rewrite isnull_null. iApply sim_heap. iApply wp_ret.
    iApply sim_heap. iApply wp_free_mstr. iFrame "C". iApply sim_heap. iApply wp_free_mstr. iFrame "T". iApply sim_ret. iApply ("K" with "H []"); [|destruct content; by iApply m_lost_nil].
    cbn [node]. unfold m_generics. by rewrite M_chain_nil.
Qed.
Lemma sim_tag_name p t Q :
  M (m_str p t) ∗ (∀ u, <affine> ⌜usable_tag t = Ok u⌝ -∗ match u with None => M (m_lost (closing t)) | Some n => M (m_str p (Some n)) ∗ <affine> ⌜closing t = []⌝ end -∗ Q u u) ⊢
  sim (usable_tag t) (tag_name_h p) Q.
Proof.
  iIntros "[P K]". unfold tag_name_h. destruct t as [[|c t]|]; cbn [m_str].
  - iStopProof. apply sim_UB.
  - rewrite M_cell. iDestruct (isnull_false with "P") as "[%En P]". rewrite En. iApply sim_heap. iApply wp_get_str. iFrame "P". iIntros "P". iApply sim_lift. iIntros (u) "%E".
    iApply ("K" with "[//]"). cbn [usable_tag] in E. apply RelTextProofs.Ok_inj in E. cbn [closing]. destruct (ceqb c c_slash); subst u.
    + iApply (m_lost_one p). cbn [m_str]. by rewrite M_cell.
    + cbn [m_str]. rewrite M_cell. by iFrame.
  - rewrite M_nothing. iDestruct "P" as %->. rewrite isnull_null. iApply sim_ret. iApply ("K" $! None with "[//]"). by iApply m_lost_nil.
Qed.
Lemma one_spec_sread fuel : ∀ R, one_spec (sread_one_fuel env fuel R) (lost_one env fuel R) R (sread_one_fuel_h env fuel).
Proof.
  induction fuel as [|k IH]; intros R h reg s Q Hs; cbn [sread_one_fuel sread_one_fuel_h]; iIntros "[H K]"; [done|].
  iApply sim_bind. iApply sim_read_tag. iIntros (p t s1) "%Et T". iApply sim_bind. iApply sim_tag_name. iFrame "T". iIntros (u) "%Eu T".
  cbn [lost_one]. rewrite Et Eu. destruct u as [name|].
  - iDestruct "T" as "[T %Ec]". rewrite Ec. cbn [app]. iApply sim_heap. iApply wp_read_upto. iIntros (c) "C". unfold osl_util_read_uptoendtag_s.
    destruct (osl_util_read_uptoflag_s s1 (endtag_of name)) as [content s2]. cbn [fst snd].
    iApply sim_bind. iApply (sim_make_generic _ (lost_one env k default_registry) _ h reg R); [apply IH|done|]. iFrame "H T C". iIntros (q g) "H G L". iApply sim_ret. iApply ("K" with "H G L").
  - iApply sim_ret. iApply ("K" $! NULL None with "H []"); [|by rewrite app_nil_r]. cbn [node]. unfold m_generics. by rewrite M_chain_nil.
Qed.
Lemma one_spec_generic R : one_spec (osl_generic_sread_one env R) (lost_generic env R) R (osl_generic_sread_one_h env).
Proof. intros h reg s Q Hs. by apply one_spec_sread. Qed.
Lemma sim_read_one f h reg R Q : sees h (m_ifaces reg R) →
  own h ∗ (∀ p g f', own h -∗ M (m_generics p (node g)) -∗ M (m_lost (lost_file_one env R f)) -∗ Q (g, f') (p, f')) ⊢
  sim (osl_generic_read_one env f R) (osl_generic_read_one_h env f reg) Q.
Proof.
  intros Hs. unfold osl_generic_read_one, osl_generic_read_one_h. iIntros "[H K]".
  iApply sim_bind. iApply sim_read_tag_f. iIntros (p t s1) "%Et T". iApply sim_bind. iApply sim_tag_name. iFrame "T". iIntros (u) "%Eu T".
  unfold lost_file_one. rewrite Et Eu. destruct u as [name|].
  - iDestruct "T" as "[T %Ec]". rewrite Ec. cbn [app]. unfold osl_util_read_uptoendtag_f. iApply sim_bind. iApply sim_read_upto_f. iIntros (c content s2) "%Es C". rewrite Es.
    iApply sim_bind. iApply (sim_make_generic _ (lost_generic env default_registry) _ h reg R); [apply one_spec_generic|done|]. iFrame "H T C". iIntros (q g) "H G L". iApply sim_ret. iApply ("K" with "H G L").
  - iApply sim_ret. iApply ("K" $! NULL None with "H []"); [|by rewrite app_nil_r]. cbn [node]. unfold m_generics. by rewrite M_chain_nil.
Qed.
End READ.
