(** * ReadHeapProofs5: the readers in memory, lists of extensions, statements and scops *)
From stdpp Require Import gmap.
From iris.proofmode Require Import tactics.
From Coq Require Import ZifyBool ZifyNat.
From Verif Require RelTextProofs.
From Verif Require Import Base IntModel VectorModel RelationModel RelSpec UtilModel StringsModel RelTextModel ExtModel HeapModel HeapObjects HeapSpec HeapLogic HeapProofs PayloadModel PayloadSpec PayloadProofs PayloadProofs2 PayloadProofs3 PayloadProofs4 PayloadProofs5 PayloadProofs6 MatProofs MatProofs4 IrregHeapProofs ScopModel PropStrings FullModel FullSpec FullProofs FullProofs2 FullProofs4 FullProofs5 ReadSpec ReadProofs ReadProofs2 ReadHeapModel ReadHeapSpec ReadHeapProofs ReadHeapProofs2 ReadHeapProofs3 ReadHeapProofs4.
Local Open Scope string_scope.
Local Open Scope list_scope.
Local Open Scope Z_scope.
Local Open Scope bi_scope.

Ltac at_cell := first
  [ match goal with H : sees _ (cell _ _) |- _ => apply sees_cell in H; apply H end
  | match goal with H : sees _ (_ ⋆ _) |- _ => apply sees_beside in H; destruct H as [H _]; at_cell end
  | match goal with H : sees _ (somewhere _) |- _ => apply sees_somewhere in H; destruct H as [? H]; cbv beta iota in H; at_cell end
  | match goal with H : sees _ (match ?x with pair _ _ => _ end) |- _ => destruct x; at_cell end ].
Ltac simown E := iApply sim_heap; iApply wp_bind; iApply (wp_get_block_own _ _ _ _ E); iFrame "H"; iIntros "H"; iApply wp_ret.
(** ** Data that is at an address *)
Definition solid (d : edata) : Prop :=
  match d with
  | DRelation u => u ≠ [] | DDependence l => l ≠ [] | DSymbols l => l ≠ [] | DLoop l => l ≠ [] | DPlutoUnroll l => l ≠ [] | DRegion l => l ≠ []
  | _ => True
  end.
Definition solid_generic (g : generic) : Prop := match ScopModel.g_data g with Some d => solid d | None => True end.
Lemma solid_nonnull h p d : solid d → sees h (m_data p d) → p ≠ NULL.
Proof.
  intros H Hs. destruct d; cbn [solid] in H; cbn [m_data] in Hs.
  - destruct s; cbn [m_strings] in Hs; at_cell.
  - cbn [m_body] in Hs. at_cell.
  - destruct u as [|r u]; [done|]. destruct Hs as (h1 & _ & H1). destruct H1 as (m & n & hm & hn & Hp & _). done.
  - unfold m_comment in Hs. at_cell.
  - unfold m_comment in Hs. at_cell.
  - unfold m_null in Hs. at_cell.
  - unfold m_scatinfos in Hs. at_cell.
  - unfold m_scatnames in Hs. at_cell.
  - unfold m_arrays in Hs. at_cell.
  - unfold m_coordinates in Hs. at_cell.
  - unfold m_comment in Hs. at_cell.
  - destruct l as [|x l]; [done|]. cbn [m_dependences] in Hs. at_cell.
  - destruct l as [|x l]; [done|]. apply (sees_chain_null _ symbol_nonnull) in Hs. intros ->. done.
  - unfold m_extbody in Hs. at_cell.
  - destruct l as [|x l]; [done|]. cbn [m_loops] in Hs. at_cell.
  - destruct l as [|x l]; [done|]. cbn [m_unrolls] in Hs. at_cell.
  - destruct l as [|x l]; [done|]. cbn [m_regions] in Hs. at_cell.
  - unfold m_annotation in Hs. at_cell.
Qed.
Lemma solid_some_list {A} (f : list A → edata) l d : (∀ l, l ≠ [] → solid (f l)) → some_list f l = Some d → solid d.
Proof. intros H E. destruct l as [|x l]; cbn [some_list] in E; [done|]. assert (d = f (x :: l)) as -> by congruence. by apply H. Qed.

Section READ.
Context {cfg : config} {al : Allocator obj}.
Variable env : option str.
Lemma data_solid one k c d : data_sread env one k c = Ok (Some d) → solid d.
Proof.
  intros E. destruct c as [s|]; [|by destruct k]. destruct k; cbn [data_sread] in E; apply RelTextProofs.bind_ok in E as ([x y] & _ & E); apply RelTextProofs.Ok_inj in E;
    try (eapply solid_some_list; [|exact E]; intros ? H'; exact H');
    try (match type of E with Some _ = Some _ => assert (E' := f_equal (λ o, match o with Some z => z | None => DNull end) E); cbn beta iota in E'; subst d; exact I end).
  - destruct x; cbn [option_map] in E; [|done]. assert (E' := f_equal (λ o, match o with Some z => z | None => DNull end) E); cbn beta iota in E'; subst d; exact I.
  - destruct x; cbn [option_map] in E; [|done]. assert (E' := f_equal (λ o, match o with Some z => z | None => DNull end) E); cbn beta iota in E'; subst d; exact I.
Qed.
Lemma make_solid one R t c g : make_generic env one R t c = Ok (Some g) → solid_generic g.
Proof.
  unfold make_generic. destruct (osl_interface_lookup R t) as [i|]; [|done]. intros E. apply RelTextProofs.bind_ok in E as (o & E1 & E). apply RelTextProofs.Ok_inj in E.
  assert (g = Generic (Some i) o) as -> by congruence. unfold solid_generic. cbn [ScopModel.g_data]. destruct o as [d|]; [|done]. by apply data_solid in E1.
Qed.
Lemma one_solid R s g s' : osl_generic_sread_one env R s = Ok (Some g, s') → solid_generic g.
Proof.
  unfold osl_generic_sread_one. cbn [sread_one_fuel]. intros E. apply RelTextProofs.bind_ok in E as ([t s1] & _ & E). apply RelTextProofs.bind_ok in E as (u & _ & E).
  destruct u as [tag|]; [|apply RelTextProofs.Ok_inj in E; congruence]. destruct (osl_util_read_uptoendtag_s s1 tag) as [c s2]. apply RelTextProofs.bind_ok in E as (g' & E1 & E).
  apply RelTextProofs.Ok_inj in E. assert (g' = Some g) as -> by congruence. by apply make_solid in E1.
Qed.
Lemma read_one_solid f R g f' : osl_generic_read_one env f R = Ok (Some g, f') → solid_generic g.
Proof.
  unfold osl_generic_read_one. intros E. apply RelTextProofs.bind_ok in E as ([t s1] & _ & E). apply RelTextProofs.bind_ok in E as (u & _ & E).
  destruct u as [tag|]; [|apply RelTextProofs.Ok_inj in E; congruence]. apply RelTextProofs.bind_ok in E as ([c s2] & _ & E). apply RelTextProofs.bind_ok in E as (g' & E1 & E).
  apply RelTextProofs.Ok_inj in E. assert (g' = Some g) as -> by congruence. by apply make_solid in E1.
Qed.

(** ** Adding an extension *)
Lemma data_at_solid h l s q : Forall solid_generic l → data_at h l s q → isnull q = match osl_generic_lookup l s with None => true | Some _ => false end.
Proof.
  intros Hl Hq%data_at_lookup. destruct (osl_generic_lookup l s) as [d|] eqn:E; cbn [m_content] in Hq.
  - apply isnull_ne. apply (solid_nonnull h q d); [|done]. clear Hq. induction Hl as [|g l Hg Hl IH]; cbn [osl_generic_lookup] in E; [done|]. destruct (has_uri g s); [|by apply IH].
    unfold solid_generic in Hg. by rewrite E in Hg.
  - apply sees_nothing in Hq. by subst q.
Qed.
Definition addable (acc : list generic) (g : generic) : res unit :=
  match ScopModel.g_uri g with None => Err | Some u => match osl_generic_lookup acc u with Some _ => Err | None => Ok tt end end.
Lemma add_addable acc g : osl_generic_add acc (Some g) = bind (addable acc g) (λ _, Ok (acc ++ [g])).
Proof. unfold addable. cbn [osl_generic_add]. destruct (ScopModel.g_uri g) as [u|]; [|done]. by destruct (osl_generic_lookup acc u). Qed.
Lemma sim_loop_on {A B} (k : nat) P R (v : res B) (f : nat → oprog A) Q :
  (P ⊢ size_ge k) → (∀ n, (k < n)%nat → P ∗ R ⊢ sim v (f n) Q) → P ∗ R ⊢ sim v (loop f) Q.
Proof. intros HP H. destruct v; cbn; [by apply (wp_loop_on k)|by apply (wpe_loop_on k)|by iIntros "_"..]. Qed.
Lemma sim_check h h' p acc c g k Q : sees h (m_generics p acc) → Forall solid_generic acc → sees h' (m_chain m_generic c [g]) → (1 < k)%nat →
  own h ∗ own h' ∗ (own h -∗ own h' -∗ Q tt tt) ⊢ sim (addable acc g) (generic_check_loop k p c) Q.
Proof.
  intros Hs Ha Hc Hk. destruct k as [|[|k]]; [lia..|]. cbn [generic_check_loop]. rewrite (sees_chain_null _ generic_nonnull _ _ _ Hc). iIntros "(O & H & K)".
  apply sees_chain_cons in Hc as (n & Hx & Hl). destruct g as [i d]. destruct (sees_generic _ _ _ _ _ Hx) as (pd & pi & Hp & Hn & Hi & Hd).
  simown Hp. rewrite (iface_opt_null _ _ _ Hi). unfold addable, ScopModel.g_uri. cbn [ScopModel.g_iface].
  destruct i as [i|]; [|iStopProof; apply sim_err]. destruct (sees_iface _ _ _ _ Hi) as (u & Hpi & _ & Huri). simown Hpi.
  rewrite (m_str_null_own _ _ _ Huri). destruct (if_uri i) as [v|] eqn:Ev; [|iStopProof; apply sim_err]. apply sees_cell in Huri as [Huri _].
  iApply sim_heap. iApply wp_get_str_own; [done|]. iFrame "H". iIntros "H". iApply sim_heap. iApply (wp_generic_lookup h p acc v); [done|]. iFrame "O". iIntros (q) "%Hq O".
  rewrite (data_at_solid _ _ _ _ Ha Hq). destruct (osl_generic_lookup acc v); [iStopProof; apply sim_err|].
  apply sees_nothing in Hl. subst n. rewrite isnull_null. iApply sim_ret. iApply ("K" with "O H").
Qed.
Lemma sim_generic_add p acc c g Q : Forall solid_generic acc →
  M (m_generics p acc) ∗ M (m_generics c (node g)) ∗ (∀ q l, <affine> ⌜osl_generic_add acc g = Ok l⌝ -∗ M (m_generics q l) -∗ Q l q) ⊢ sim (osl_generic_add acc g) (osl_generic_add_f p c) Q.
Proof.
  intros Ha. iIntros "(P & C & K)". unfold osl_generic_add_f, m_generics. destruct g as [g|]; cbn [node].
  2: { iEval (rewrite M_chain_nil) in "C". iDestruct "C" as %->. rewrite isnull_null. cbn [osl_generic_add]. iApply sim_ret. iApply ("K" with "[//] P"). }
  iDestruct (chain_null _ generic_nonnull with "C") as "[%Ec C]". rewrite Ec. rewrite add_addable. iApply sim_eq.
  iEval (rewrite (M_own (m_chain m_generic p acc))) in "P". iEval (rewrite (M_own (m_chain m_generic c _))) in "C". iDestruct "P" as (h) "[%Hh P]". iDestruct "C" as (h') "[%Hh' C]".
  iApply sim_bind. iCombine "P K" as "K". iCombine "C K" as "K". iStopProof.
  apply (sim_loop_on 1). { eapply own_size; [apply (generics_length c [g])|by apply sees_self]. }
  intros k Hk. iIntros "(C & P & K)". iApply (sim_check h h' p acc c g k); [by apply sees_self|done|by apply sees_self|done|]. iFrame "P C". iIntros "P C".
  iDestruct (M_back _ _ Hh with "P") as "P". iDestruct (M_back _ _ Hh' with "C") as "C".
  iDestruct (chain_null _ generic_nonnull with "P") as "[%Ep P]". rewrite Ep. destruct acc as [|y acc].
  - iApply sim_ret. iIntros "E". iApply ("K" with "E"). rewrite M_chain_nil. by iDestruct "P" as "_".
  - iApply sim_heap. iApply (wp_link_loop m_generic generic_nonnull generic_link_loop set_gen_next); [|apply wp_set_gen_next|apply generic_size1|].
    { intros f q [i d] n q' Q'. cbn [m_generic]. iIntros "[(%w & A) K]". destruct w as [pd pi]. iDestruct "A" as "(P & A)". cbn [generic_link_loop]. rewrite M_cell. get "P". iApply "K". iExists (pd, pi). iSplitL "P"; done. }
    iFrame "P C". iIntros "P". iApply sim_ret. iIntros "E". by iApply ("K" with "E").
Qed.
Lemma add_solid acc g l : Forall solid_generic acc → (∀ x, g = Some x → solid_generic x) → osl_generic_add acc g = Ok l → Forall solid_generic l.
Proof.
  intros Ha Hg E. destruct g as [g|]; [|apply RelTextProofs.Ok_inj in E; by subst]. rewrite add_addable in E. apply RelTextProofs.bind_ok in E as (u & _ & E). apply RelTextProofs.Ok_inj in E. subst l.
  apply Forall_app. split; [done|]. constructor; [by apply Hg|done].
Qed.

(** ** Lists of extensions *)
Lemma sim_sread_loop fuel h reg R : sees h (m_ifaces reg R) → ∀ p acc s Q, Forall solid_generic acc →
  own h ∗ M (m_generics p acc) ∗ (∀ q l s', own h -∗ M (m_generics q l) -∗ M (m_lost (lost_loop env fuel R s)) -∗ Q (l, s') q) ⊢
  sim (sread_loop env fuel R acc s) (sread_loop_h env fuel reg p s) Q.
Proof.
  intros Hs. induction fuel as [|k IH]; intros p acc s Q Ha; iIntros "(H & P & K)"; cbn [sread_loop sread_loop_h lost_loop]; [done|].
  destruct s as [|ch s]; [iApply sim_ret; iApply ("K" with "H P"); by iApply m_lost_nil|].
  iApply sim_bind. iApply (sim_one _ (lost_generic env R) R); [apply one_spec_generic|done|]. iFrame "H". iIntros (c g s1) "%E1 H G L".
  iApply sim_bind. iApply sim_generic_add; [done|]. iFrame "P G". iIntros (q l) "%El P". iApply (IH q l s1). { eapply add_solid; [exact Ha| |exact El]. intros x ->. by apply one_solid in E1. }
  iFrame "H P". iIntros (q' l' s') "H P L'". iApply ("K" with "H P"). rewrite E1. cbn [after]. iApply m_lost_app. iFrame.
Qed.
Lemma sim_generic_sread s h reg R Q : sees h (m_ifaces reg R) →
  own h ∗ (∀ q l s', own h -∗ M (m_generics q l) -∗ M (m_lost (lost_generics env R s)) -∗ Q (l, s') q) ⊢
  sim (osl_generic_sread env s R) (osl_generic_sread_h env s reg) Q.
Proof.
  intros Hs. iIntros "[H K]". iApply sim_sread_loop; [done|done|]. iFrame "H K". unfold m_generics. by rewrite M_chain_nil.
Qed.
Lemma sim_generic_read f h reg R Q : sees h (m_ifaces reg R) →
  own h ∗ (∀ q l f', own h -∗ M (m_generics q l) -∗ M (m_lost (lost_file env R f)) -∗ Q (l, f') (q, f')) ⊢
  sim (osl_generic_read env f R) (osl_generic_read_h env f reg) Q.
Proof.
  intros Hs. iIntros "[H K]". unfold osl_generic_read, osl_generic_read_h, osl_util_read_uptoendtag_f. iApply sim_bind. iApply sim_read_upto_f. iIntros (c content f1) "%E C".
  unfold lost_file, osl_util_read_uptoendtag_f. rewrite E. destruct content as [s|]; [|iStopProof; apply sim_UB]. cbn [m_str]. rewrite M_cell.
  iApply sim_heap. iApply wp_get_str. iFrame "C". iIntros "C". iApply sim_bind. iApply sim_generic_sread; [done|]. iFrame "H". iIntros (q l s') "H G L".
  iApply sim_heap. iApply wp_free. iFrame "C". iApply sim_ret. iApply ("K" with "H G L").
Qed.
Lemma sim_read_extensions n h reg R : sees h (m_ifaces reg R) → ∀ p acc f Q, Forall solid_generic acc →
  own h ∗ M (m_generics p acc) ∗ (∀ q l f', own h -∗ M (m_generics q l) -∗ M (m_lost (lost_extensions env n R f)) -∗ Q (l, f') (q, f')) ⊢
  sim (read_extensions env n R acc f) (read_extensions_h env n reg p f) Q.
Proof.
  intros Hs. induction n as [|k IH]; intros p acc f Q Ha; iIntros "(H & P & K)"; cbn [read_extensions read_extensions_h lost_extensions].
  - iApply sim_ret. iApply ("K" with "H P"). by iApply m_lost_nil.
  - iApply sim_bind. iApply sim_eq. iApply sim_read_one; [done|]. iFrame "H". iIntros (c g s1) "H G L %E1".
    iApply sim_bind. iApply sim_generic_add; [done|]. iFrame "P G". iIntros (q l) "%El P". iApply (IH q l s1). { eapply add_solid; [exact Ha| |exact El]. intros x ->. by apply read_one_solid in E1. }
    iFrame "H P". iIntros (q' l' s') "H P L'". iApply ("K" with "H P"). rewrite E1. cbn [after]. iApply m_lost_app. iFrame.
Qed.
End READ.
