(** * HeapProofs4: statements and scops *)
From stdpp Require Import gmap.
From iris.proofmode Require Import tactics.
From Coq Require Import ZifyBool ZifyNat.
From Verif Require Import Base IntModel VectorModel RelationModel HeapModel HeapObjects HeapSpec HeapLogic HeapProofs HeapProofs2 HeapProofs3.
Local Open Scope string_scope.
Local Open Scope list_scope.
Local Open Scope Z_scope.
Local Open Scope bi_scope.

Section S.
Context {cfg : config} {al : Allocator obj}.

Lemma wp_get_stmt p d s a e n (Q : _ → oprop) :
  p ↦ CStmt d s a e n ∗ (p ↦ CStmt d s a e n -∗ Q (d, s, a, e, n)) ⊢ wp (get_stmt p) Q.
Proof. iIntros "[H K]". iApply wp_bind. iApply wp_load. iFrame. iIntros "H". iApply wp_ret. by iApply "K". Qed.
Lemma wp_set_stmt_next p d s a e n q (Q : _ → oprop) :
  p ↦ CStmt d s a e n ∗ (p ↦ CStmt d s a e q -∗ Q tt) ⊢ wp (set_stmt_next p q) Q.
Proof. iIntros "[H K]". iApply wp_bind. iApply wp_get_stmt. iFrame. iIntros "H". iApply wp_store. iFrame. Qed.
Lemma wp_set_snode_next p s n q (Q : _ → oprop) : snode p s n ∗ (snode p s q -∗ Q tt) ⊢ wp (set_stmt_next p q) Q.
Proof.
  iIntros "[(%d & %sc & %a & %e & H & R) K]". iApply wp_set_stmt_next. iFrame "H". iIntros "H". iApply "K". iExists d, sc, a, e. iFrame.
Qed.
Lemma wp_get_snode p s n (Q : _ → oprop) :
  snode p s n ∗ (∀ d sc a e, snode p s n -∗ Q (d, sc, a, e, n)) ⊢ wp (get_stmt p) Q.
Proof.
  iIntros "[(%d & %sc & %a & %e & H & R) K]". iApply wp_get_stmt. iFrame "H". iIntros "H". iApply "K". iExists d, sc, a, e. iFrame.
Qed.
Lemma ex_snode h p s n : ex h (snode p s n) ⊢ ∃ d sc a e hd hs ha he,
  p ↦ CStmt d sc a e n ∗ ex hd (runion d (st_domain s)) ∗ ex hs (runion sc (st_scattering s)) ∗
  ex ha (rlist a (st_access s)) ∗ ex he (glist e (st_extension s)) ∗
  <affine> ⌜p ↦ CStmt d sc a e n ∗ ex hd (runion d (st_domain s)) ∗ ex hs (runion sc (st_scattering s)) ∗
  ex ha (rlist a (st_access s)) ∗ ex he (glist e (st_extension s)) ⊢ ex h (snode p s n)⌝.
Proof.
  unfold snode. iIntros "H". iDestruct (ex_exist_elim with "H") as (d) "H". iDestruct (ex_exist_elim with "H") as (sc) "H".
  iDestruct (ex_exist_elim with "H") as (a) "H". iDestruct (ex_exist_elim with "H") as (e) "H".
  iDestruct (ex_sep_elim with "H") as (h1 h2) "(H1 & H & -> & %D1)".
  iDestruct (ex_sep_elim with "H") as (hd h3) "(H2 & H & -> & %D2)".
  iDestruct (ex_sep_elim with "H") as (hs h4) "(H3 & H & -> & %D3)".
  iDestruct (ex_sep_elim with "H") as (ha he) "(H4 & H5 & -> & %D4)".
  iDestruct (ex_cell with "H1") as "[%C H1]".
  iExists d, sc, a, e, hd, hs, ha, he. iFrame. iPureIntro.
  iIntros "(H1 & H2 & H3 & H4 & H5)".
  iApply (ex_exist_intro _ _ d). iApply (ex_exist_intro _ _ sc). iApply (ex_exist_intro _ _ a). iApply (ex_exist_intro _ _ e).
  iApply ex_sep_intro. iSplitL "H1"; [by iApply C|]. iApply ex_sep_intro. iFrame "H2". iApply ex_sep_intro. iFrame "H3".
  iApply ex_sep_intro. iFrame.
Qed.

Lemma wp_statement_free_loop l : ∀ p fuel (Q : _ → oprop), (List.length l < fuel)%nat →
  slist p l ∗ Q tt ⊢ wp (statement_free_loop fuel p) Q.
Proof.
  induction l as [|x l IH]; intros p [|fuel] Q Hf; try (cbn in Hf; lia); cbn [statement_free_loop].
  - cbn [slist chain]. iIntros "[-> Q]". by iApply wp_ret.
  - iIntros "[(%n & H & L) Q]". iDestruct (node_nonnull snode with "H") as "[%E H]". rewrite E.
    iDestruct "H" as (d sc a e) "(H & D & S & A & X)". iApply wp_bind. iApply wp_get_stmt. iFrame "H". iIntros "H".
    iApply wp_bind. iApply wp_relation_free. iFrame "D". iApply wp_bind. iApply wp_relation_free. iFrame "S".
    iApply wp_bind. iApply wp_list_free. iFrame "A". iApply wp_bind. iApply wp_generic_free. iFrame "X".
    iApply wp_bind. iApply wp_free. iFrame "H". iApply IH; [cbn in Hf; lia|]. iFrame.
Qed.
Lemma wp_statement_free p l (Q : _ → oprop) : slist p l ∗ Q tt ⊢ wp (osl_statement_free_p p) Q.
Proof. apply (wp_loop_on (List.length l)); [apply chain_size, _|]. intros k Hk. by apply wp_statement_free_loop. Qed.
Lemma wp_statement_add_loop l : ∀ p x q v fuel (Q : _ → oprop), (List.length l < fuel)%nat →
  slist p (x :: l) ∗ slist q v ∗ (slist p ((x :: l) ++ v) -∗ Q tt) ⊢ wp (statement_add_loop fuel p q) Q.
Proof.
  induction l as [|y l IH]; intros p x q v [|fuel] Q Hf; try (cbn in Hf; lia); cbn [statement_add_loop].
  - cbn [slist chain app]. iIntros "((%n & H & ->) & V & K)". iApply wp_bind. iApply wp_get_snode. iFrame "H". iIntros (????) "H".
    rewrite isnull_null. iApply wp_set_snode_next. iFrame "H". iIntros "H". iApply "K". iExists q. iFrame.
  - iIntros "((%n & H & L) & V & K)". iApply wp_bind. iApply wp_get_snode. iFrame "H". iIntros (????) "H".
    iDestruct (chain_isnull snode n (y :: l) with "L") as "[%E L]". rewrite E.
    iApply (IH n y q v); [cbn in Hf; lia|]. iFrame "L V". iIntros "L". iApply "K". cbn [app]. iExists n. iFrame.
Qed.
Lemma wp_statement_add p l q v (Q : _ → oprop) :
  slist p l ∗ slist q v ∗ (slist (if isnull p then q else p) (l ++ v) -∗ Q (if isnull p then q else p))
  ⊢ wp (osl_statement_add_p p q) Q.
Proof.
  iIntros "(L & V & K)". unfold osl_statement_add_p. iDestruct (chain_isnull with "L") as "[%Ep L]". rewrite Ep.
  destruct l as [|y l].
  - iApply wp_ret. iApply "K". cbn [chain app]. iDestruct "L" as "_". done.
  - iApply wp_bind. iCombine "V K" as "K". iCombine "L K" as "K". iStopProof.
    apply (wp_loop_on (List.length (y :: l))); [apply chain_size, _|]. intros k' Hk'. iIntros "(L & V & K)".
    iApply (wp_statement_add_loop l p y q v); [cbn in Hk'; lia|]. iFrame "L V". iIntros "L". iApply wp_ret. by iApply "K".
Qed.
Lemma wp_get_stmt_ex h p s n (Q : _ → oprop) :
  ex h (snode p s n) ∗ (∀ d sc a e, ex h (snode p s n) -∗ Q (d, sc, a, e, n)) ⊢ wp (get_stmt p) Q.
Proof.
  iIntros "[H K]". iDestruct (ex_snode with "H") as (d sc a e hd hs ha he) "(H & D & S & A & E & %C)".
  iApply wp_get_stmt. iFrame "H". iIntros "H". iApply "K". iApply C. iFrame.
Qed.
Lemma wp_statement_number_loop l : ∀ h p fuel (Q : _ → oprop), (List.length l < fuel)%nat →
  ex h (slist p l) ∗ (ex h (slist p l) -∗ Q (Z.of_nat (List.length l))) ⊢ wp (statement_number_loop fuel p) Q.
Proof.
  induction l as [|x l IH]; intros h p [|fuel] Q Hf; try (cbn in Hf; lia); cbn [statement_number_loop].
  - iIntros "[L K]". iDestruct (ex_chain_isnull with "L") as "[%E L]". rewrite E. iApply wp_ret. by iApply "K".
  - iIntros "[L K]". iDestruct (ex_chain_cons with "L") as (n h1 h2) "(H & L & %C)".
    iDestruct (ex_node_nonnull with "H") as "[%E H]". rewrite E.
    iApply wp_bind. iApply wp_get_stmt_ex. iFrame "H". iIntros (????) "H". iApply wp_bind. iApply (IH h2); [cbn in Hf; lia|].
    iFrame "L". iIntros "L". iApply wp_ret. cbn [List.length]. rewrite Nat2Z.inj_succ -Z.add_1_r. iApply "K". iApply C. iFrame.
Qed.
Lemma wp_statement_number h p l (Q : _ → oprop) :
  ex h (slist p l) ∗ (ex h (slist p l) -∗ Q (Z.of_nat (List.length l))) ⊢ wp (osl_statement_number_p p) Q.
Proof. apply (wp_loop_on (List.length l)); [apply ex_chain_size, _|]. intros k Hk. by apply wp_statement_number_loop. Qed.

(** A new statement from copies; [f] is what the copy function computes. *)
Lemma wp_new_statement (cl : ptr → oprog ptr) (f : list relation → res (list relation)) :
  (∀ h p u u' (Q : ptr → oprop), f u = Ok u' →
     ex h (runion p u) ∗ (∀ q, ex h (runion p u) -∗ runion q u' -∗ Q q) ⊢ wp (cl p) Q) →
  ∀ hd hs ha he d s a e ud us ua ue ud' us' ua' ue' (Q : _ → oprop),
    f ud = Ok ud' → f us = Ok us' → clone_list ua = Ok ua' → gclone [] ue = Some ue' →
    ex hd (runion d ud) ∗ ex hs (runion s us) ∗ ex ha (rlist a ua) ∗ ex he (glist e ue) ∗
    (∀ q, ex hd (runion d ud) -∗ ex hs (runion s us) -∗ ex ha (rlist a ua) -∗ ex he (glist e ue) -∗
          snode q (Stmt ud' us' ua' ue') NULL -∗ Q q)
    ⊢ wp (new_statement cl d s a e) Q.
Proof.
  intros Hcl hd hs ha he d s a e ud us ua ue ud' us' ua' ue' Q Hud Hus Hua Hue. iIntros "(D & S & A & E & K)".
  iApply wp_bind. iApply wp_alloc. iIntros (q) "N".
  iApply wp_bind. iApply Hcl; [exact Hud|]. iFrame "D". iIntros (d') "D D'".
  iApply wp_bind. iApply Hcl; [exact Hus|]. iFrame "S". iIntros (s') "S S'".
  iApply wp_bind. iApply wp_list_clone; [exact Hua|]. iFrame "A". iIntros (a') "A A'".
  iApply wp_bind. iApply (wp_generic_nclone he e ue (-1) ue'); [exact Hue|]. iFrame "E". iIntros (e') "E E'".
  iApply wp_bind. iApply wp_store. iFrame "N". iIntros "N". iApply wp_ret. iApply ("K" with "D S A E").
  iExists d', s', a', e'. iFrame.
Qed.
(** [s'] is the copy of [s]. *)
Definition copies (s s' : stmt) : Prop :=
  osl_relation_clone (st_domain s) = Ok (st_domain s') ∧ osl_relation_clone (st_scattering s) = Ok (st_scattering s') ∧
  clone_list (st_access s) = Ok (st_access s') ∧ gclone [] (st_extension s) = Some (st_extension s').
Lemma wp_statement_nclone_rest n l : ∀ h p i prev sp clone l' fuel (Q : _ → oprop), (List.length l < fuel)%nat → 0 ≤ i →
  Forall2 copies (wanted n i l) l' →
  ex h (slist p l) ∗ snode prev sp NULL ∗ (ex h (slist p l) -∗ slist prev (sp :: l') -∗ Q clone)
  ⊢ wp (statement_nclone_loop fuel p n i false clone prev) Q.
Proof.
  induction l as [|x l IH]; intros h p i prev sp clone l' [|fuel] Q Hf Hi Hl; try (cbn in Hf; lia); cbn [statement_nclone_loop].
  - rewrite wanted_nil in Hl. apply Forall2_nil_inv_l in Hl as ->. iIntros "(L & P & K)".
    iDestruct (ex_chain_isnull with "L") as "[%E L]". rewrite E. cbn [negb andb]. iApply wp_ret. iApply ("K" with "L").
    iExists NULL. by iFrame.
  - rewrite wanted_cons in Hl; [|done]. iIntros "(L & P & K)". iDestruct (ex_chain_isnull with "L") as "[%E L]". rewrite E.
    cbn [negb andb]. destruct ((n =? -1) || (i <? n)).
    + apply Forall2_cons_inv_l in Hl as (x' & l1 & (Hd & Hs & Ha & He) & Hl & ->).
      iDestruct (ex_chain_cons with "L") as (m h1 h2) "(H & L & %C)".
      iDestruct (ex_snode with "H") as (d sc a e hd hs ha he) "(H & D & S & A & X & %C')".
      iApply wp_bind. iApply wp_get_stmt. iFrame "H". iIntros "H".
      iApply wp_bind. iApply (wp_new_statement _ _ (wp_relation_clone)); [exact Hd|exact Hs|exact Ha|exact He|].
      iFrame "D S A X". iIntros (q) "D S A X N". iApply wp_bind. iApply wp_get_stmt. iFrame "H". iIntros "H".
      iApply wp_bind. iApply wp_set_snode_next. iFrame "P". iIntros "P".
      iApply (IH h2 m (i + 1) q _ clone l1); [cbn in Hf; lia|lia|done|]. iFrame "L N". iIntros "L N".
      iApply ("K" with "[H D S A X L]"); [iApply C; iFrame "L"; iApply C'; iFrame|]. iExists q. iFrame "P".
      by destruct x'.
    + apply Forall2_nil_inv_l in Hl as ->. iApply wp_ret. iApply ("K" with "L"). iExists NULL. by iFrame.
Qed.
Lemma wp_statement_nclone h p l n l' (Q : _ → oprop) : Forall2 copies (wanted n 0 l) l' →
  ex h (slist p l) ∗ (∀ q, ex h (slist p l) -∗ slist q l' -∗ Q q) ⊢ wp (osl_statement_nclone_p p n) Q.
Proof.
  intros Hl. apply (wp_loop_on (List.length l)); [apply ex_chain_size, _|]. intros [|fuel] Hf; [lia|]. cbn [statement_nclone_loop].
  destruct l as [|x l].
  - rewrite wanted_nil in Hl. apply Forall2_nil_inv_l in Hl as ->. iIntros "(L & K)".
    iDestruct (ex_chain_isnull with "L") as "[%E L]". rewrite E. cbn [negb andb]. iApply wp_ret. by iApply ("K" with "L").
  - rewrite wanted_cons in Hl; [|done]. iIntros "(L & K)". iDestruct (ex_chain_isnull with "L") as "[%E L]". rewrite E.
    cbn [negb andb]. destruct ((n =? -1) || (0 <? n)).
    + apply Forall2_cons_inv_l in Hl as (x' & l1 & (Hd & Hs & Ha & He) & Hl & ->).
      iDestruct (ex_chain_cons with "L") as (m h1 h2) "(H & L & %C)".
      iDestruct (ex_snode with "H") as (d sc a e hd hs ha he) "(H & D & S & A & X & %C')".
      iApply wp_bind. iApply wp_get_stmt. iFrame "H". iIntros "H".
      iApply wp_bind. iApply (wp_new_statement _ _ (wp_relation_clone)); [exact Hd|exact Hs|exact Ha|exact He|].
      iFrame "D S A X". iIntros (q) "D S A X N". iApply wp_bind. iApply wp_get_stmt. iFrame "H". iIntros "H".
      iApply (wp_statement_nclone_rest n l h2 m (0 + 1) q _ q l1); [cbn in Hf; lia|lia|done|]. iFrame "L N". iIntros "L N".
      iApply ("K" with "[H D S A X L]"); [iApply C; iFrame "L"; iApply C'; iFrame|]. by destruct x'.
    + apply Forall2_nil_inv_l in Hl as ->. iApply wp_ret. by iApply ("K" with "L").
Qed.

(** *** Union removal *)
(** The list built so far, from its head to its last node. *)
Definition built (r last : ptr) (l : list stmt) : oprop :=
  match l with
  | [] => <affine> ⌜r = NULL⌝
  | _ => ∃ l0 y, <affine> ⌜l = l0 ++ [y]⌝ ∗ cseg snode r l0 last ∗ snode last y NULL
  end.
Lemma built_isnull r t l : built r t l ⊢ <affine> ⌜isnull r = match l with [] => true | _ => false end⌝ ∗ built r t l.
Proof.
  destruct l as [|x l]; cbn [built].
  - iIntros "->". done.
  - iIntros "(%l0 & %y & %E & L & Y)". destruct l0 as [|z l0].
    + cbn [cseg]. iDestruct "L" as "->". iDestruct (node_nonnull snode with "Y") as "[$ Y]". iExists [], y. by iFrame.
    + cbn [cseg]. iDestruct "L" as (n) "[Z L]". iDestruct (node_nonnull snode with "Z") as "[$ Z]". iExists (z :: l0), y. iFrame "Y".
      iSplit; [done|]. iExists n. iFrame.
Qed.
Lemma built_list r t l : built r t l ⊢ slist r l.
Proof.
  destruct l as [|x l]; cbn [built]; [done|]. iIntros "(%l0 & %y & -> & L & Y)". iApply cseg_app. iFrame "L". iExists NULL. by iFrame.
Qed.
Lemma scseg_snoc l y p t q : cseg snode p l t ∗ snode t y q ⊢ cseg snode p (l ++ [y]) q.
Proof.
  revert p. induction l as [|x l IH]; intros p; cbn [cseg app].
  - iIntros "[-> H]". iExists q. by iFrame.
  - iIntros "[(%n & H & L) T]". iExists n. iFrame "H". iApply IH. iFrame.
Qed.
Lemma built_nonempty r t l y : (∃ l0, <affine> ⌜l = l0⌝ ∗ cseg snode r l0 t) ∗ snode t y NULL ⊢ built r t (l ++ [y]).
Proof.
  iIntros "[(%l0 & -> & L) Y]". unfold built. destruct (l0 ++ [y]) eqn:E; [by destruct l0|]. rewrite -E. iExists l0, y. by iFrame.
Qed.
(** One part of a union, or the absence of parts. *)
Definition pieces (u : list relation) : list (list relation) := match u with [] => [[]] | _ => List.map (λ r, [r]) u end.
(** Copying one part gives this part. *)
Definition parts_copied (u : list relation) : Prop := ∀ r v, In r u → osl_relation_nclone (r :: v) 1 = Ok [r].
Definition clone_one (u : list relation) : res (list relation) := match u with [] => Ok [] | _ => osl_relation_nclone u 1 end.
Lemma wp_clone_one_safe h p u u' (Q : ptr → oprop) : clone_one u = Ok u' →
  ex h (runion p u) ∗ (∀ q, ex h (runion p u) -∗ runion q u' -∗ Q q) ⊢ wp (osl_relation_clone_one_safe_p p) Q.
Proof.
  intros Hu. iIntros "[U K]". unfold osl_relation_clone_one_safe_p. iDestruct (ex_runion_isnull with "U") as "[%E U]". rewrite E.
  destruct u as [|r u]; cbn [clone_one] in Hu.
  - injection Hu as <-. iApply wp_ret. by iApply ("K" with "U").
  - iApply wp_relation_nclone; [exact Hu|]. iFrame.
Qed.
Definition with_parts (a : list (list relation)) (e : list gen) (d s : list relation) : stmt := Stmt d s a e.
Lemma wp_scat_loop us : ∀ hd hs ha he d s a e ud ud' ua ue ua' ue' r t l fuel (Q : _ → oprop),
  (List.length us < fuel)%nat → parts_copied us →
  clone_one ud = Ok ud' → clone_list ua = Ok ua' → gclone [] ue = Some ue' →
  ex hd (runion d ud) ∗ ex hs (runion s us) ∗ ex ha (rlist a ua) ∗ ex he (glist e ue) ∗ built r t l ∗
  (∀ r' t', ex hd (runion d ud) -∗ ex hs (runion s us) -∗ ex ha (rlist a ua) -∗ ex he (glist e ue) -∗
       built r' t' (l ++ List.map (with_parts ua' ue' ud') (pieces us)) -∗ Q (r', t'))
  ⊢ wp (remove_unions_scat_loop fuel d s a e r t) Q.
Proof.
  induction us as [|x us IH]; intros hd hs ha he d s a e ud ud' ua ue ua' ue' r t l [|fuel] Q Hf Hp Hd Ha He; try (cbn in Hf; lia);
    cbn [remove_unions_scat_loop]; iIntros "(D & S & A & E & B & K)".
  - iApply wp_bind. iApply (wp_new_statement _ _ wp_clone_one_safe); [exact Hd|exact (eq_refl : clone_one [] = Ok [])|exact Ha|exact He|].
    iFrame "D S A E". iIntros (q) "D S A E N". iDestruct (built_isnull with "B") as "[%Er B]". rewrite Er.
    iAssert (wp (if match l with [] => true | _ => false end then ret tt else set_stmt_next t q)
      (λ _, built (if match l with [] => true | _ => false end then q else r) q (l ++ [Stmt ud' [] ua' ue'])))%I with "[B N]" as "B".
    { destruct l as [|y l].
      - iApply wp_ret. iApply built_nonempty. iFrame "N". iExists []. cbn [cseg]. done.
      - cbn [built]. iDestruct "B" as (l0 z) "(%El & L & Z)". iApply wp_set_snode_next. iFrame "Z". iIntros "Z".
        iApply built_nonempty. iFrame "N". iExists (y :: l). iSplit; [done|]. rewrite El. iApply scseg_snoc. iFrame. }
    iApply wp_bind. iApply wp_wand. iFrame "B". iIntros (_) "B".
    iDestruct (ex_runion_isnull with "S") as "[%Es S]". rewrite Es. iApply wp_ret. iApply ("K" with "D S A E B").
  - iApply wp_bind. iApply (wp_new_statement _ _ wp_clone_one_safe); [exact Hd|exact (Hp x us (or_introl eq_refl) : clone_one (x :: us) = Ok [x])|exact Ha|exact He|].
    iFrame "D S A E". iIntros (q) "D S A E N". iDestruct (built_isnull with "B") as "[%Er B]". rewrite Er.
    iAssert (wp (if match l with [] => true | _ => false end then ret tt else set_stmt_next t q)
      (λ _, built (if match l with [] => true | _ => false end then q else r) q (l ++ [Stmt ud' [x] ua' ue'])))%I with "[B N]" as "B".
    { destruct l as [|y l].
      - iApply wp_ret. iApply built_nonempty. iFrame "N". iExists []. cbn [cseg]. done.
      - cbn [built]. iDestruct "B" as (l0 z) "(%El & L & Z)". iApply wp_set_snode_next. iFrame "Z". iIntros "Z".
        iApply built_nonempty. iFrame "N". iExists (y :: l). iSplit; [done|]. rewrite El. iApply scseg_snoc. iFrame. }
    iApply wp_bind. iApply wp_wand. iFrame "B". iIntros (_) "B".
    iDestruct (ex_runion_isnull with "S") as "[%Es S]". rewrite Es.
    iDestruct (ex_runion_cons with "S") as (m n h2) "(H & M & U & %C)".
    iApply wp_bind. iApply wp_get_rel. iFrame "H". iIntros "H". iDestruct (ex_runion_isnull with "U") as "[%En U]". rewrite En.
    destruct us as [|x2 us].
    + iApply wp_ret. iApply ("K" with "D [H M U] A E B"). iApply C. iFrame.
    + iApply (IH hd h2 ha he d n a e ud ud' ua ue ua' ue'); [cbn in *; lia|intros rr v Hin; apply Hp; by right|done|done|done|].
      iFrame "D U A E B". iIntros (r' t') "D U A E B". rewrite -app_assoc. cbn [pieces List.map app].
      iApply ("K" with "D [H M U] A E B"). iApply C. iFrame.
Qed.
Lemma wp_dom_loop ud : ∀ hd hs ha he d s a e us ua ue ua' ue' r t l fuel (Q : _ → oprop),
  (List.length ud < fuel)%nat → parts_copied us → parts_copied ud → clone_list ua = Ok ua' → gclone [] ue = Some ue' →
  ex hd (runion d ud) ∗ ex hs (runion s us) ∗ ex ha (rlist a ua) ∗ ex he (glist e ue) ∗ built r t l ∗
  (∀ r', ex hd (runion d ud) -∗ ex hs (runion s us) -∗ ex ha (rlist a ua) -∗ ex he (glist e ue) -∗
       slist r' (l ++ flat_map (λ d, List.map (with_parts ua' ue' d) (pieces us)) (pieces ud)) -∗ Q r')
  ⊢ wp (remove_unions_dom_loop fuel d s a e r t) Q.
Proof.
  induction ud as [|x ud IH]; intros hd hs ha he d s a e us ua ue ua' ue' r t l [|fuel] Q Hf Hp Hpd Ha He; try (cbn in Hf; lia);
    cbn [remove_unions_dom_loop]; iIntros "(D & S & A & E & B & K)".
  - iApply wp_bind. iCombine "D A E B K" as "R". iCombine "S R" as "R". iStopProof.
    apply (wp_loop_on (List.length us)); [apply ex_runion_size|]. intros k Hk. iIntros "(S & D & A & E & B & K)".
    iApply (wp_scat_loop us hd hs ha he d s a e [] [] ua ue ua' ue'); [done|done|done|done|done|]. iFrame "D S A E B".
    iIntros (r' t') "D S A E B". iDestruct (ex_runion_isnull with "D") as "[%Es D]". rewrite Es. iApply wp_ret.
    iApply ("K" with "D S A E"). cbn [pieces flat_map]. rewrite app_nil_r. by iApply built_list.
  - iApply wp_bind. iCombine "D A E B K" as "R". iCombine "S R" as "R". iStopProof.
    apply (wp_loop_on (List.length us)); [apply ex_runion_size|]. intros k Hk. iIntros "(S & D & A & E & B & K)".
    iApply (wp_scat_loop us hd hs ha he d s a e (x :: ud) [x] ua ue ua' ue'); [done|done|exact (Hpd x ud (or_introl eq_refl) : clone_one (x :: ud) = Ok [x])|done|done|]. iFrame "D S A E B".
    iIntros (r' t') "D S A E B". iDestruct (ex_runion_isnull with "D") as "[%Es D]". rewrite Es.
    iDestruct (ex_runion_cons with "D") as (m n h2) "(H & M & U & %C)".
    iApply wp_bind. iApply wp_get_rel. iFrame "H". iIntros "H". iDestruct (ex_runion_isnull with "U") as "[%En U]". rewrite En.
    destruct ud as [|x2 ud].
    + iApply wp_ret. iApply ("K" with "[H M U] S A E"); [iApply C; iFrame|]. cbn [pieces flat_map List.map]. rewrite app_nil_r. by iApply built_list.
    + iApply (IH h2 hs ha he n s a e us ua ue ua' ue'); [cbn in *; lia|done|intros rr v Hin; apply Hpd; by right|done|done|].
      iFrame "U S A E B". iIntros (rr) "U S A E B".
      iApply ("K" with "[H M U] S A E [B]"); [iApply C; iFrame|]. rewrite -app_assoc. done.
Qed.
(** The statements made from [s]. *)
Definition unions (s : stmt) (a : list (list relation)) (e : list gen) : list stmt :=
  flat_map (λ d, List.map (with_parts a e d) (pieces (st_scattering s))) (pieces (st_domain s)).
Lemma wp_statement_remove_unions h p s n a e (Q : _ → oprop) :
  parts_copied (st_domain s) → parts_copied (st_scattering s) → clone_list (st_access s) = Ok a → gclone [] (st_extension s) = Some e →
  ex h (snode p s n) ∗ (∀ q, ex h (snode p s n) -∗ slist q (unions s a e) -∗ Q q)
  ⊢ wp (osl_statement_remove_unions_p p) Q.
Proof.
  intros Hpd Hps Ha He. iIntros "[H K]". unfold osl_statement_remove_unions_p. iDestruct (ex_node_nonnull with "H") as "[%E H]". rewrite E.
  iDestruct (ex_snode with "H") as (d sc ac ex' hd hs ha he) "(H & D & S & A & X & %C)".
  iApply wp_bind. iApply wp_get_stmt. iFrame "H". iIntros "H".
  iCombine "H S A X K" as "R". iCombine "D R" as "R". iStopProof.
  apply (wp_loop_on (List.length (st_domain s))); [apply ex_runion_size|]. intros k Hk. iIntros "(D & H & S & A & X & K)".
  iApply (wp_dom_loop (st_domain s) hd hs ha he d sc ac ex' (st_scattering s) _ _ a e NULL NULL []); [done|done|done|exact Ha|exact He|].
  iFrame "D S A X". iSplit; [done|]. iIntros (r) "D S A X L". iApply ("K" with "[H D S A X] L"). iApply C. iFrame.
Qed.
End S.
