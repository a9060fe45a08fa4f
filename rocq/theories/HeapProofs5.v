(** * HeapProofs5: scops *)
From stdpp Require Import gmap.
From iris.proofmode Require Import tactics.
From Coq Require Import ZifyBool ZifyNat.
From Verif Require Import Base IntModel VectorModel RelationModel HeapModel HeapObjects HeapSpec HeapLogic HeapProofs HeapProofs2 HeapProofs3 HeapProofs4.
Local Open Scope string_scope.
Local Open Scope list_scope.
Local Open Scope Z_scope.
Local Open Scope bi_scope.

Section S.
Context {cfg : config} {al : Allocator obj}.
Lemma wp_get_scop p v lg c pa st r e n (Q : _ → oprop) :
  p ↦ CScop v lg c pa st r e n ∗ (p ↦ CScop v lg c pa st r e n -∗ Q (SNode v lg c pa st r e n)) ⊢ wp (get_scop p) Q.
Proof. iIntros "[H K]". iApply wp_bind. iApply wp_load. iFrame. iIntros "H". iApply wp_ret. by iApply "K". Qed.
Lemma wp_set_scnode_next p s n q (Q : _ → oprop) : scnode p s n ∗ (scnode p s q -∗ Q tt) ⊢ wp (set_scop_next p q) Q.
Proof.
  iIntros "[(%c & %pa & %st & %r & %e & H & R) K]". iApply wp_bind. iApply wp_get_scop. iFrame "H". iIntros "H".
  iApply wp_store. iFrame "H". cbn [sn_version sn_language sn_context sn_parameters sn_statement sn_registry sn_extension].
  iIntros "H". iApply "K". iExists c, pa, st, r, e. iFrame.
Qed.
Lemma wp_get_scnode p s n (Q : _ → oprop) :
  scnode p s n ∗ (∀ c pa st r e, scnode p s n -∗ Q (SNode (sc_version s) (sc_language s) c pa st r e n)) ⊢ wp (get_scop p) Q.
Proof.
  iIntros "[(%c & %pa & %st & %r & %e & H & R) K]". iApply wp_get_scop. iFrame "H". iIntros "H". iApply "K". iExists c, pa, st, r, e. iFrame.
Qed.
Lemma ex_scnode h p s n : ex h (scnode p s n) ⊢ ∃ c pa st r e hc hp hs hr he,
  p ↦ CScop (sc_version s) (sc_language s) c pa st r e n ∗ ex hc (runion c (sc_context s)) ∗ ex hp (glist pa (sc_parameters s)) ∗
  ex hs (slist st (sc_statement s)) ∗ ex hr (ilist r (sc_registry s)) ∗ ex he (glist e (sc_extension s)) ∗
  <affine> ⌜p ↦ CScop (sc_version s) (sc_language s) c pa st r e n ∗ ex hc (runion c (sc_context s)) ∗ ex hp (glist pa (sc_parameters s)) ∗
  ex hs (slist st (sc_statement s)) ∗ ex hr (ilist r (sc_registry s)) ∗ ex he (glist e (sc_extension s)) ⊢ ex h (scnode p s n)⌝.
Proof.
  unfold scnode. iIntros "H". iDestruct (ex_exist_elim with "H") as (c) "H". iDestruct (ex_exist_elim with "H") as (pa) "H".
  iDestruct (ex_exist_elim with "H") as (st) "H". iDestruct (ex_exist_elim with "H") as (r) "H". iDestruct (ex_exist_elim with "H") as (e) "H".
  iDestruct (ex_sep_elim with "H") as (h1 h2) "(H1 & H & -> & %D1)".
  iDestruct (ex_sep_elim with "H") as (hc h3) "(H2 & H & -> & %D2)".
  iDestruct (ex_sep_elim with "H") as (hp h4) "(H3 & H & -> & %D3)".
  iDestruct (ex_sep_elim with "H") as (hs h5) "(H4 & H & -> & %D4)".
  iDestruct (ex_sep_elim with "H") as (hr he) "(H5 & H6 & -> & %D5)".
  iDestruct (ex_cell with "H1") as "[%C H1]".
  iExists c, pa, st, r, e. iExists hc, hp, hs, hr, he. iFrame. iPureIntro.
  iIntros "(H1 & H2 & H3 & H4 & H5 & H6)".
  iApply (ex_exist_intro _ _ c). iApply (ex_exist_intro _ _ pa). iApply (ex_exist_intro _ _ st). iApply (ex_exist_intro _ _ r). iApply (ex_exist_intro _ _ e).
  iApply ex_sep_intro. iSplitL "H1"; [by iApply C|]. iApply ex_sep_intro. iFrame "H2". iApply ex_sep_intro. iFrame "H3".
  iApply ex_sep_intro. iFrame "H4". iApply ex_sep_intro. iFrame.
Qed.

Lemma wp_scop_free_loop l : ∀ p fuel (Q : _ → oprop), (List.length l < fuel)%nat →
  sclist p l ∗ Q tt ⊢ wp (scop_free_loop fuel p) Q.
Proof.
  induction l as [|x l IH]; intros p [|fuel] Q Hf; try (cbn in Hf; lia); cbn [scop_free_loop].
  - cbn [sclist chain]. iIntros "[-> Q]". by iApply wp_ret.
  - iIntros "[(%n & H & L) Q]". iDestruct (node_nonnull scnode with "H") as "[%E H]". rewrite E.
    iDestruct "H" as (c pa st r e) "(H & C & P & S & R & X)". iApply wp_bind. iApply wp_get_scop. iFrame "H". iIntros "H".
    cbn [sn_version sn_language sn_context sn_parameters sn_statement sn_registry sn_extension].
    iApply wp_bind. iApply wp_generic_free. iFrame "P". iApply wp_bind. iApply wp_relation_free. iFrame "C".
    iApply wp_bind. iApply wp_statement_free. iFrame "S". iApply wp_bind. iApply wp_interface_free. iFrame "R".
    iApply wp_bind. iApply wp_generic_free. iFrame "X". iApply wp_bind. iApply wp_get_scop. iFrame "H". iIntros "H".
    iApply wp_bind. iApply wp_free. iFrame "H". cbn [sn_next]. iApply IH; [cbn in Hf; lia|]. iFrame.
Qed.
Lemma wp_scop_free p l (Q : _ → oprop) : sclist p l ∗ Q tt ⊢ wp (osl_scop_free_p p) Q.
Proof. apply (wp_loop_on (List.length l)); [apply chain_size, _|]. intros k Hk. by apply wp_scop_free_loop. Qed.
Lemma wp_scop_add_loop l : ∀ p x q v fuel (Q : _ → oprop), (List.length l < fuel)%nat →
  sclist p (x :: l) ∗ sclist q v ∗ (sclist p ((x :: l) ++ v) -∗ Q tt) ⊢ wp (scop_add_loop fuel p q) Q.
Proof.
  induction l as [|y l IH]; intros p x q v [|fuel] Q Hf; try (cbn in Hf; lia); cbn [scop_add_loop].
  - cbn [sclist chain app]. iIntros "((%n & H & ->) & V & K)". iApply wp_bind. iApply wp_get_scnode. iFrame "H". iIntros (?????) "H".
    cbn [sn_next]. rewrite isnull_null. iApply wp_set_scnode_next. iFrame "H". iIntros "H". iApply "K". iExists q. iFrame.
  - iIntros "((%n & H & L) & V & K)". iApply wp_bind. iApply wp_get_scnode. iFrame "H". iIntros (?????) "H". cbn [sn_next].
    iDestruct (chain_isnull scnode n (y :: l) with "L") as "[%E L]". rewrite E.
    iApply (IH n y q v); [cbn in Hf; lia|]. iFrame "L V". iIntros "L". iApply "K". cbn [app]. iExists n. iFrame.
Qed.
Lemma wp_scop_add p l q v (Q : _ → oprop) :
  sclist p l ∗ sclist q v ∗ (sclist (if isnull p then q else p) (l ++ v) -∗ Q (if isnull p then q else p))
  ⊢ wp (osl_scop_add_p p q) Q.
Proof.
  iIntros "(L & V & K)". unfold osl_scop_add_p. iDestruct (chain_isnull with "L") as "[%Ep L]". rewrite Ep.
  destruct l as [|y l].
  - iApply wp_ret. iApply "K". cbn [chain app]. iDestruct "L" as "_". done.
  - iApply wp_bind. iCombine "V K" as "K". iCombine "L K" as "K". iStopProof.
    apply (wp_loop_on (List.length (y :: l))); [apply chain_size, _|]. intros k' Hk'. iIntros "(L & V & K)".
    iApply (wp_scop_add_loop l p y q v); [cbn in Hk'; lia|]. iFrame "L V". iIntros "L". iApply wp_ret. by iApply "K".
Qed.

(** [s'] is the copy of the scop [s], but for its statements. *)
Definition copies_frame (s s' : scop) : Prop :=
  sc_version s' = sc_version s ∧ sc_language s' = sc_language s ∧
  osl_relation_clone (sc_context s) = Ok (sc_context s') ∧ gclone [] (sc_parameters s) = Some (sc_parameters s') ∧
  iclone [] (sc_registry s) = Some (sc_registry s') ∧ gclone [] (sc_extension s) = Some (sc_extension s').
Definition copies_scop (s s' : scop) : Prop := copies_frame s s' ∧ Forall2 copies (sc_statement s) (sc_statement s').
Lemma wp_scop_clone_rest l : ∀ h p prev sp clone l' fuel (Q : _ → oprop), (List.length l < fuel)%nat →
  Forall2 copies_scop l l' →
  ex h (sclist p l) ∗ scnode prev sp NULL ∗ (ex h (sclist p l) -∗ sclist prev (sp :: l') -∗ Q clone)
  ⊢ wp (scop_clone_loop fuel p false clone prev) Q.
Proof.
  induction l as [|x l IH]; intros h p prev sp clone l' [|fuel] Q Hf Hl; try (cbn in Hf; lia); cbn [scop_clone_loop].
  - apply Forall2_nil_inv_l in Hl as ->. iIntros "(L & P & K)".
    iDestruct (ex_chain_isnull with "L") as "[%E L]". rewrite E. iApply wp_ret. iApply ("K" with "L").
    iExists NULL. by iFrame.
  - iIntros "(L & PV & K)". iDestruct (ex_chain_isnull with "L") as "[%E L]". rewrite E.
    apply Forall2_cons_inv_l in Hl as (x' & l1 & ((Hv & Hlg & Hc & Hp & Hr & He) & Hs) & Hl & ->).
    iDestruct (ex_chain_cons with "L") as (m h1 h2) "(H & L & %C)".
    iDestruct (ex_scnode with "H") as (c pa st r e hc hp hs hr he) "(H & CX & P & S & R & X & %C')".
    iApply wp_bind. iApply wp_get_scop. iFrame "H". iIntros "H".
    cbn [sn_version sn_language sn_context sn_parameters sn_statement sn_registry sn_extension].
    iApply wp_bind. iApply wp_alloc. iIntros (q) "N".
    iApply wp_bind. iApply wp_relation_clone; [exact Hc|]. iFrame "CX". iIntros (c') "CX CX'".
    iApply wp_bind. iApply (wp_generic_nclone _ _ _ (-1)); [exact Hp|]. iFrame "P". iIntros (p') "P P'".
    iApply wp_bind. iApply (wp_statement_nclone _ _ _ (-1)); [exact Hs|]. iFrame "S". iIntros (s') "S S'".
    iApply wp_bind. iApply (wp_interface_nclone _ _ _ (-1)); [exact Hr|]. iFrame "R". iIntros (r') "R R'".
    iApply wp_bind. iApply (wp_generic_nclone _ _ _ (-1)); [exact He|]. iFrame "X". iIntros (e') "X X'".
    iApply wp_bind. iApply wp_store. iFrame "N". iIntros "N".
    iApply wp_bind. iApply wp_get_scop. iFrame "H". iIntros "H". cbn [sn_next].
    iApply wp_bind. iApply wp_set_scnode_next. iFrame "PV". iIntros "PV".
    iApply (IH h2 m q x' clone l1); [cbn in Hf; lia|done|]. iFrame "L". iSplitL "N CX' P' S' R' X'".
    { iExists c', p', s', r', e'. rewrite Hv Hlg. iFrame. }
    iIntros "L N". iApply ("K" with "[H CX P S R X L]"); [iApply C; iFrame "L"; iApply C'; iFrame|]. iExists q. iFrame.
Qed.
Lemma wp_scop_clone h p l l' (Q : _ → oprop) : Forall2 copies_scop l l' →
  ex h (sclist p l) ∗ (∀ q, ex h (sclist p l) -∗ sclist q l' -∗ Q q) ⊢ wp (osl_scop_clone_p p) Q.
Proof.
  intros Hl. apply (wp_loop_on (List.length l)); [apply ex_chain_size, _|]. intros [|fuel] Hf; [lia|]. cbn [scop_clone_loop].
  destruct l as [|x l].
  - apply Forall2_nil_inv_l in Hl as ->. iIntros "(L & K)".
    iDestruct (ex_chain_isnull with "L") as "[%E L]". rewrite E. iApply wp_ret. by iApply ("K" with "L").
  - iIntros "(L & K)". iDestruct (ex_chain_isnull with "L") as "[%E L]". rewrite E.
    apply Forall2_cons_inv_l in Hl as (x' & l1 & ((Hv & Hlg & Hc & Hp & Hr & He) & Hs) & Hl & ->).
    iDestruct (ex_chain_cons with "L") as (m h1 h2) "(H & L & %C)".
    iDestruct (ex_scnode with "H") as (c pa st r e hc hp hs hr he) "(H & CX & P & S & R & X & %C')".
    iApply wp_bind. iApply wp_get_scop. iFrame "H". iIntros "H".
    cbn [sn_version sn_language sn_context sn_parameters sn_statement sn_registry sn_extension].
    iApply wp_bind. iApply wp_alloc. iIntros (q) "N".
    iApply wp_bind. iApply wp_relation_clone; [exact Hc|]. iFrame "CX". iIntros (c') "CX CX'".
    iApply wp_bind. iApply (wp_generic_nclone _ _ _ (-1)); [exact Hp|]. iFrame "P". iIntros (p') "P P'".
    iApply wp_bind. iApply (wp_statement_nclone _ _ _ (-1)); [exact Hs|]. iFrame "S". iIntros (s') "S S'".
    iApply wp_bind. iApply (wp_interface_nclone _ _ _ (-1)); [exact Hr|]. iFrame "R". iIntros (r') "R R'".
    iApply wp_bind. iApply (wp_generic_nclone _ _ _ (-1)); [exact He|]. iFrame "X". iIntros (e') "X X'".
    iApply wp_bind. iApply wp_store. iFrame "N". iIntros "N".
    iApply wp_bind. iApply wp_get_scop. iFrame "H". iIntros "H". cbn [sn_next].
    iApply (wp_scop_clone_rest l h2 m q x' q l1); [cbn in Hf; lia|done|]. iFrame "L". iSplitL "N CX' P' S' R' X'".
    { iExists c', p', s', r', e'. rewrite Hv Hlg. iFrame. }
    iIntros "L N". iApply ("K" with "[H CX P S R X L] N"). iApply C; iFrame "L"; iApply C'; iFrame.
Qed.

(** *** Union removal *)
(** The statements made from [s], when [s] can be copied. *)
Definition splittable (s : stmt) (l : list stmt) : Prop :=
  (parts_copied (st_domain s) ∧ parts_copied (st_scattering s) ∧
   ∃ a e, clone_list (st_access s) = Ok a ∧ gclone [] (st_extension s) = Some e ∧ l = unions s a e)%type.
Lemma unions_cons s a e : (∃ x l, unions s a e = x :: l)%type.
Proof.
  unfold unions, pieces. destruct (st_domain s), (st_scattering s); cbn; eauto.
Qed.
(** What the loop keeps of the lists [ll] made from the statements: the first
    statement of each list but the last one, which is kept whole. *)
Fixpoint kept (ll : list (list stmt)) : list stmt :=
  match ll with
  | [] => []
  | [l] => l
  | l :: ll' => firstn 1 l ++ kept ll'
  end.
Lemma kept_cons x l ll : ll ≠ [] → kept ((x :: l) :: ll) = x :: kept ll.
Proof. by destruct ll. Qed.
Lemma wp_scop_unions_rest ss : ∀ h p t y tl tailp head ll fuel (Q : _ → oprop), (List.length ss < fuel)%nat →
  Forall2 splittable ss ll →
  ex h (slist p ss) ∗ snode t y tailp ∗ slist tailp tl ∗
  (∀ leak : oprop, ex h (slist p ss) -∗ slist t (kept ((y :: tl) :: ll)) -∗ leak -∗
     <affine> ⌜Forall (λ l, List.length l = 1%nat) (removelast ((y :: tl) :: ll)) → leak ⊢ emp⌝ -∗ Q head)
  ⊢ wp (scop_unions_loop fuel p t head) Q.
Proof.
  induction ss as [|s ss IH]; intros h p t y tl tailp head ll [|fuel] Q Hf Hl; try (cbn in Hf; lia); cbn [scop_unions_loop].
  - apply Forall2_nil_inv_l in Hl as ->. iIntros "(L & T & TL & K)".
    iDestruct (ex_chain_isnull with "L") as "[%E L]". rewrite E. iApply wp_ret. iApply ("K" $! emp with "L [T TL] [//] []"); [|done].
    cbn [kept]. iExists tailp. iFrame.
  - iIntros "(L & T & TL & K)". iDestruct (ex_chain_isnull with "L") as "[%E L]". rewrite E.
    apply Forall2_cons_inv_l in Hl as (u & ll' & (Hd & Hs & a & e & Ha & He & Hu) & Hl & ->).
    iDestruct (ex_chain_cons with "L") as (m h1 h2) "(H & L & %C)".
    iApply wp_bind. iApply (wp_statement_remove_unions h1 p s m a e); [done|done|done|done|]. iFrame "H". iIntros (q) "H U".
    iApply wp_bind. iApply wp_get_stmt_ex. iFrame "H". iIntros (????) "H".
    iDestruct (node_nonnull snode with "T") as "[%Et T]". rewrite Et.
    iApply wp_bind. iApply wp_set_snode_next. iFrame "T". iIntros "T".
    iApply wp_bind. iApply wp_get_snode. iFrame "T". iIntros (????) "T".
    destruct (unions_cons s a e) as (x & us & Ex). rewrite Ex. iDestruct "U" as (qn) "[U UL]".
    iApply (IH h2 m q x us qn head ll'); [cbn in Hf; lia|done|]. iFrame "L U UL". iIntros (leak) "L U LK %HL".
    iApply ("K" $! (leak ∗ slist tailp tl)%I with "[H L] [T U] [LK TL] []").
    + iApply C. iFrame.
    + rewrite (kept_cons y tl (u :: ll')) //. iExists q. iFrame "T". rewrite Hu Ex. iExact "U".
    + iFrame.
    + iPureIntro. intros HF. rewrite Hu Ex in HF. cbn [removelast] in HF.
      destruct tl; [|by apply Forall_inv in HF]. iIntros "[LK T]". cbn [slist chain].
      iDestruct "T" as "_". iApply (HL with "LK"). apply Forall_inv_tail in HF. exact HF.
Qed.
Lemma wp_scop_unions_loop ss h p ll fuel (Q : _ → oprop) : (List.length ss < fuel)%nat → Forall2 splittable ss ll →
  ex h (slist p ss) ∗
  (∀ q (leak : oprop), ex h (slist p ss) -∗ slist q (kept ll) -∗ leak -∗
     <affine> ⌜Forall (λ l, List.length l = 1%nat) (removelast ll) → leak ⊢ emp⌝ -∗ Q q)
  ⊢ wp (scop_unions_loop fuel p NULL NULL) Q.
Proof.
  destruct fuel as [|fuel]; [lia|]. intros Hf Hl. cbn [scop_unions_loop]. destruct ss as [|s ss].
  - apply Forall2_nil_inv_l in Hl as ->. iIntros "(L & K)".
    iDestruct (ex_chain_isnull with "L") as "[%E L]". rewrite E. iApply wp_ret. by iApply ("K" $! NULL emp with "L [//] [//] []").
  - iIntros "(L & K)". iDestruct (ex_chain_isnull with "L") as "[%E L]". rewrite E.
    apply Forall2_cons_inv_l in Hl as (u & ll' & (Hd & Hs & a & e & Ha & He & Hu) & Hl & ->).
    iDestruct (ex_chain_cons with "L") as (m h1 h2) "(H & L & %C)".
    iApply wp_bind. iApply (wp_statement_remove_unions h1 p s m a e); [done|done|done|done|]. iFrame "H". iIntros (q) "H U".
    iApply wp_bind. iApply wp_get_stmt_ex. iFrame "H". iIntros (????) "H". rewrite isnull_null.
    destruct (unions_cons s a e) as (x & us & Ex). rewrite Ex. iDestruct "U" as (qn) "[U UL]".
    iApply (wp_scop_unions_rest ss h2 m q x us qn q ll'); [cbn in Hf; lia|done|]. iFrame "L U UL". iIntros (leak) "L U LK %HL".
    iApply ("K" $! q leak with "[H L] [U] LK []").
    + iApply C. iFrame.
    + by rewrite Hu Ex.
    + iPureIntro. by rewrite Hu Ex.
Qed.
Lemma wp_scop_unions_walk l : ∀ p fuel (Q : _ → oprop), (List.length l < fuel)%nat →
  slist p l ∗ (slist p l -∗ Q tt) ⊢ wp (scop_unions_walk fuel p) Q.
Proof.
  induction l as [|x l IH]; intros p [|fuel] Q Hf; try (cbn in Hf; lia); cbn [scop_unions_walk].
  - cbn [slist chain]. iIntros "[-> K]". rewrite isnull_null. iApply wp_ret. by iApply "K".
  - iIntros "[(%n & H & L) K]". iDestruct (node_nonnull snode with "H") as "[%E H]". rewrite E.
    iApply wp_bind. iApply wp_get_snode. iFrame "H". iIntros (????) "H".
    iDestruct (chain_isnull snode n l with "L") as "[%En L]". rewrite En. destruct l as [|y l].
    + iApply wp_ret. iApply "K". iExists n. iFrame.
    + iApply IH; [cbn in *; lia|]. iFrame "L". iIntros "L". iApply "K". iExists n. iFrame.
Qed.
(** The scop made from [s], with the lists made from its statements. *)
Definition unions_scop (s s' : scop) : Prop :=
  (copies_frame s s' ∧ ∃ ll, Forall2 splittable (sc_statement s) ll ∧ sc_statement s' = kept ll)%type.
(** No statement is lost. *)
Definition lossless (s : scop) : Prop :=
  (∀ ll, Forall2 splittable (sc_statement s) ll → Forall (λ l, List.length l = 1%nat) (removelast ll))%type.

Definition scbuilt (r last : ptr) (l : list scop) : oprop :=
  match l with
  | [] => <affine> ⌜r = NULL⌝
  | _ => ∃ l0 y, <affine> ⌜l = l0 ++ [y]⌝ ∗ cseg scnode r l0 last ∗ scnode last y NULL
  end.
Lemma scbuilt_isnull r t l : scbuilt r t l ⊢ <affine> ⌜isnull r = match l with [] => true | _ => false end⌝ ∗ scbuilt r t l.
Proof.
  destruct l as [|x l]; cbn [scbuilt].
  - iIntros "->". done.
  - iIntros "(%l0 & %y & %E & L & Y)". destruct l0 as [|z l0].
    + cbn [cseg]. iDestruct "L" as "->". iDestruct (node_nonnull scnode with "Y") as "[$ Y]". iExists [], y. by iFrame.
    + cbn [cseg]. iDestruct "L" as (n) "[Z L]". iDestruct (node_nonnull scnode with "Z") as "[$ Z]". iExists (z :: l0), y. iFrame "Y".
      iSplit; [done|]. iExists n. iFrame.
Qed.
Lemma scbuilt_list r t l : scbuilt r t l ⊢ sclist r l.
Proof.
  destruct l as [|x l]; cbn [scbuilt]; [done|]. iIntros "(%l0 & %y & -> & L & Y)". iApply cseg_app. iFrame "L". iExists NULL. by iFrame.
Qed.
Lemma sccseg_snoc l y p t q : cseg scnode p l t ∗ scnode t y q ⊢ cseg scnode p (l ++ [y]) q.
Proof.
  revert p. induction l as [|x l IH]; intros p; cbn [cseg app].
  - iIntros "[-> H]". iExists q. by iFrame.
  - iIntros "[(%n & H & L) T]". iExists n. iFrame "H". iApply IH. iFrame.
Qed.
Lemma scbuilt_nonempty r t l y : cseg scnode r l t ∗ scnode t y NULL ⊢ scbuilt r t (l ++ [y]).
Proof.
  iIntros "[L Y]". unfold scbuilt. destruct (l ++ [y]) eqn:E; [by destruct l|]. rewrite -E. iExists l, y. by iFrame.
Qed.
Lemma wp_scop_remove_unions_loop l : ∀ h p r t done l' fuel (Q : _ → oprop), (List.length l < fuel)%nat → Forall2 unions_scop l l' →
  ex h (sclist p l) ∗ scbuilt r t done ∗
  (∀ q (leak : oprop), ex h (sclist p l) -∗ sclist q (done ++ l') -∗ leak -∗ <affine> ⌜Forall lossless l → leak ⊢ emp⌝ -∗ Q q)
  ⊢ wp (scop_remove_unions_loop fuel p r t) Q.
Proof.
  induction l as [|x l IH]; intros h p rp t done l' [|fuel] Q Hf Hl; try (cbn in Hf; lia); cbn [scop_remove_unions_loop].
  - apply Forall2_nil_inv_l in Hl as ->. iIntros "(L & B & K)".
    iDestruct (ex_chain_isnull with "L") as "[%E L]". rewrite E. iApply wp_ret. iApply ("K" $! rp emp with "L [B] [//] []"); [|done].
    rewrite app_nil_r. by iApply scbuilt_list.
  - iIntros "(L & B & K)". iDestruct (ex_chain_isnull with "L") as "[%E L]". rewrite E.
    apply Forall2_cons_inv_l in Hl as (x' & l1 & ((Hv & Hlg & Hc & Hp & Hr & He) & ll & Hll & Hst) & Hl & ->).
    iDestruct (ex_chain_cons with "L") as (m h1 h2) "(H & L & %C)".
    iDestruct (ex_scnode with "H") as (c pa st r e hc hp hs hr he) "(H & CX & P & S & R & X & %C')".
    iApply wp_bind. iApply wp_get_scop. iFrame "H". iIntros "H".
    cbn [sn_version sn_language sn_context sn_parameters sn_statement sn_registry sn_extension].
    iApply wp_bind. iApply wp_alloc. iIntros (q) "N".
    iApply wp_bind. iCombine "L B K H CX P R X N" as "RR". iCombine "S RR" as "RR". iStopProof.
    apply (wp_loop_on (List.length (sc_statement x))); [apply ex_chain_size, _|]. intros k Hk. iIntros "(S & L & B & K & H & CX & P & R & X & N)".
    iApply (wp_scop_unions_loop (sc_statement x) hs st ll k); [done|done|]. iFrame "S". iIntros (s' leak1) "S S' LK1 %HL1".
    iApply wp_bind. iCombine "L B K H CX P R X N S LK1" as "RR". iCombine "S' RR" as "RR". iStopProof.
    apply (wp_loop_on (List.length (kept ll))); [apply chain_size, _|]. intros k' Hk'. iIntros "(S' & L & B & K & H & CX & P & R & X & N & S & LK1)".
    iApply (wp_scop_unions_walk (kept ll)); [done|]. iFrame "S'". iIntros "S'".
    iApply wp_bind. iApply wp_relation_clone; [exact Hc|]. iFrame "CX". iIntros (c') "CX CX'".
    iApply wp_bind. iApply (wp_generic_nclone _ _ _ (-1)); [exact He|]. iFrame "X". iIntros (e') "X X'".
    iApply wp_bind. iApply (wp_generic_nclone _ _ _ (-1)); [exact Hp|]. iFrame "P". iIntros (p') "P P'".
    iApply wp_bind. iApply (wp_interface_nclone _ _ _ (-1)); [exact Hr|]. iFrame "R". iIntros (r') "R R'".
    iApply wp_bind. iApply wp_store. iFrame "N". iIntros "N".
    iAssert (scnode q x' NULL) with "[N CX' P' S' R' X']" as "N".
    { iExists c', p', s', r', e'. rewrite Hv Hlg Hst. iFrame. }
    iDestruct (scbuilt_isnull with "B") as "[%Er B]". rewrite Er.
    iAssert (wp (if match done with [] => true | _ => false end then ret tt else set_scop_next t q)
      (λ _, scbuilt (if match done with [] => true | _ => false end then q else rp) q (done ++ [x'])))%I with "[B N]" as "B".
    { destruct done as [|y done].
      - iApply wp_ret. iApply scbuilt_nonempty. iFrame "N". cbn [cseg]. done.
      - cbn [scbuilt]. iDestruct "B" as (l0 z) "(%El & B & Z)". iApply wp_set_scnode_next. iFrame "Z". iIntros "Z".
        iApply scbuilt_nonempty. iFrame "N". rewrite El. iApply sccseg_snoc. iFrame. }
    iApply wp_bind. iApply wp_wand. iFrame "B". iIntros (_) "B".
    iApply wp_bind. iApply wp_get_scop. iFrame "H". iIntros "H". cbn [sn_next].
    iApply (IH h2 m _ q (done ++ [x']) l1); [cbn in Hf; lia|done|]. iFrame "L B". iIntros (q' leak2) "L B LK2 %HL2".
    iApply ("K" $! q' (leak1 ∗ leak2)%I with "[H CX P S R X L] [B] [LK1 LK2] []").
    + iApply C; iFrame "L"; iApply C'; iFrame.
    + by rewrite -app_assoc.
    + iFrame.
    + iPureIntro. intros HF. inversion HF as [|? ? H1 H2]; subst. iIntros "[L1 L2]".
      iDestruct (HL1 (H1 ll Hll) with "L1") as "_". by iApply (HL2 H2).
Qed.
Lemma wp_scop_remove_unions h p l l' (Q : _ → oprop) : Forall2 unions_scop l l' →
  ex h (sclist p l) ∗
  (∀ q (leak : oprop), ex h (sclist p l) -∗ sclist q l' -∗ leak -∗ <affine> ⌜Forall lossless l → leak ⊢ emp⌝ -∗ Q q)
  ⊢ wp (osl_scop_remove_unions_p p) Q.
Proof.
  intros Hl. apply (wp_loop_on (List.length l)); [apply ex_chain_size, _|]. intros k Hf. iIntros "[L K]".
  iApply (wp_scop_remove_unions_loop l h p NULL NULL [] l'); [done|done|]. iFrame "L". iSplit; [done|]. iIntros (q leak) "L S LK".
  iApply ("K" with "L S LK").
Qed.
End S.
