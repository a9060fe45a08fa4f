(** * HeapProofs: the pointer programs refine the value-level model *)
From stdpp Require Import gmap.
From iris.proofmode Require Import tactics.
From Coq Require Import ZifyBool ZifyNat.
From Verif Require Import Base IntModel VectorModel RelationModel HeapModel HeapObjects HeapLogic.

Notation oprop := (bi_car (hpropI obj)).
Local Open Scope string_scope.
Local Open Scope list_scope.
Local Open Scope Z_scope.
Local Open Scope bi_scope.
Notation "p ↦ v" := (pointsto (V:=obj) p v) (at level 20) : bi_scope.

(** ** Shapes *)
Definition mat_at (m : ptr) (r : relation) : oprop :=
  if (nrows r =? 0) || (ncols r =? 0) then <affine> ⌜m = NULL ∧ rm r = []⌝ else m ↦ CMat (rm r).
Fixpoint runion (p : ptr) (u : list relation) : oprop :=
  match u with
  | [] => <affine> ⌜p = NULL⌝
  | r :: u' => ∃ m n, p ↦ CRel (header r) m n ∗ mat_at m r ∗ runion n u'
  end.
Fixpoint rlist (p : ptr) (l : list (list relation)) : oprop :=
  match l with
  | [] => <affine> ⌜p = NULL⌝
  | u :: l' => ∃ e n, p ↦ CList e n ∗ runion e u ∗ rlist n l'
  end.

(** ** Field accesses *)
Section R.
Context {cfg : config} {al : Allocator obj}.

Lemma wp_get_rel p r m n (Q : _ → oprop) : p ↦ CRel r m n ∗ (p ↦ CRel r m n -∗ Q (r, m, n)) ⊢ wp (get_rel p) Q.
Proof. iIntros "[H K]". iApply wp_bind. iApply wp_load. iFrame. iIntros "H". iApply wp_ret. by iApply "K". Qed.
Lemma wp_get_mat p m (Q : _ → oprop) : p ↦ CMat m ∗ (p ↦ CMat m -∗ Q m) ⊢ wp (get_mat p) Q.
Proof. iIntros "[H K]". iApply wp_bind. iApply wp_load. iFrame. iIntros "H". iApply wp_ret. by iApply "K". Qed.
Lemma wp_get_list p e n (Q : _ → oprop) : p ↦ CList e n ∗ (p ↦ CList e n -∗ Q (e, n)) ⊢ wp (get_list p) Q.
Proof. iIntros "[H K]". iApply wp_bind. iApply wp_load. iFrame. iIntros "H". iApply wp_ret. by iApply "K". Qed.
Lemma wp_set_rel_next p r m n q (Q : _ → oprop) : p ↦ CRel r m n ∗ (p ↦ CRel r m q -∗ Q tt) ⊢ wp (set_rel_next p q) Q.
Proof. iIntros "[H K]". iApply wp_bind. iApply wp_get_rel. iFrame. iIntros "H". iApply wp_store. iFrame. Qed.
Lemma wp_set_list_next p e n q (Q : _ → oprop) : p ↦ CList e n ∗ (p ↦ CList e q -∗ Q tt) ⊢ wp (set_list_next p q) Q.
Proof. iIntros "[H K]". iApply wp_bind. iApply wp_get_list. iFrame. iIntros "H". iApply wp_store. iFrame. Qed.

Lemma isnull_false p v : p ↦ v ⊢ <affine> ⌜isnull p = false⌝ ∗ p ↦ v.
Proof.
  iIntros "H". iDestruct (pointsto_not_null with "H") as %?. iFrame. iPureIntro.
  unfold isnull. by apply Z.eqb_neq.
Qed.
Lemma isnull_null : isnull NULL = true. Proof. done. Qed.

Lemma header_with_m r : with_m (header r) (nrows (header r)) (ncols (header r)) (rm r) = r.
Proof. by destruct r. Qed.

Lemma wp_read_part p r m n (Q : _ → oprop) :
  p ↦ CRel (header r) m n ∗ mat_at m r ∗ (p ↦ CRel (header r) m n -∗ mat_at m r -∗ Q (r, n)) ⊢ wp (read_part p) Q.
Proof.
  iIntros "(H & M & K)". iApply wp_bind. iApply wp_get_rel. iFrame. iIntros "H". unfold mat_at.
  destruct ((nrows r =? 0) || (ncols r =? 0)).
  - iDestruct "M" as %[-> Hr]. iApply wp_bind. iApply wp_ret. iApply wp_ret.
    rewrite -{2}Hr header_with_m. by iApply ("K" with "H").
  - iDestruct (isnull_false with "M") as "[%E M]". rewrite E. iApply wp_bind. iApply wp_get_mat. iFrame "M". iIntros "M".
    iApply wp_ret. rewrite header_with_m. iApply ("K" with "H M").
Qed.

Lemma runion_null u : runion NULL u ⊢ <affine> ⌜u = []⌝ ∗ runion NULL u.
Proof.
  destruct u as [|r u]; [by iIntros "$"|]. cbn [runion]. iIntros "(%m & %n & H & ?)".
  iDestruct (pointsto_not_null with "H") as %?. done.
Qed.
Lemma runion_nonnull p r u : runion p (r :: u) ⊢ <affine> ⌜isnull p = false⌝ ∗ runion p (r :: u).
Proof.
  cbn [runion]. iIntros "(%m & %n & H & ?)". iDestruct (isnull_false with "H") as "[$ H]". iExists m, n. iFrame.
Qed.
Lemma runion_isnull p u : runion p u ⊢ <affine> ⌜isnull p = match u with [] => true | _ => false end⌝ ∗ runion p u.
Proof.
  destruct u as [|r u]; [|apply runion_nonnull]. cbn [runion]. iIntros "%E". subst p. done.
Qed.
Lemma runion_size p u : runion p u ⊢ size_ge (List.length u).
Proof.
  revert p. induction u as [|r u IH]; intros p; [apply size_ge_0|]. cbn [runion List.length].
  iIntros "(%m & %n & H & M & U)".
  iApply (size_ge_sep (p ↦ CRel (header r) m n ∗ mat_at m r) _ 1 (List.length u)); [|apply IH|iFrame].
  iIntros "[H M]". iApply (size_ge_frame _ (mat_at m r)). iFrame "M". by iApply size_ge_cell.
Qed.

Global Instance mat_at_precise m r : Precise (mat_at m r).
Proof. unfold mat_at. destruct (_ || _); apply _. Qed.
Lemma ex_runion_isnull h p u :
  ex h (runion p u) ⊢ <affine> ⌜isnull p = match u with [] => true | _ => false end⌝ ∗ ex h (runion p u).
Proof. apply ex_pure. iIntros "H". by iDestruct (runion_isnull with "H") as "[% _]". Qed.
Lemma ex_runion_size h p u : ex h (runion p u) ⊢ size_ge (List.length u).
Proof. iIntros "H". iApply runion_size. by iApply ex_elim. Qed.
(** One node of an exact union, and how to close it again. *)
Lemma ex_runion_cons_in h p r u : ex h (runion p (r :: u)) ⊢ ∃ m n h2,
  p ↦ CRel (header r) m n ∗ mat_at m r ∗ ex h2 (runion n u) ∗
  <affine> ⌜p ↦ CRel (header r) m n ∗ mat_at m r ∗ ex h2 (runion n u) ⊢ ex h (runion p (r :: u))⌝ ∗
  <affine> ⌜h2 ⊆ h⌝ ∗ <affine> ⌜h !! p ≠ None⌝.
Proof.
  cbn [runion]. iIntros "H". iDestruct (ex_exist_elim with "H") as (m) "H". iDestruct (ex_exist_elim with "H") as (n) "H".
  iDestruct (ex_sep_elim with "H") as (h1 h23) "(H1 & H & -> & %D1)". iDestruct (ex_sep_elim with "H") as (h2 h3) "(H2 & H3 & -> & %D2)".
  iExists m, n, h3. iFrame "H3".
  iDestruct (ex_self with "H1") as "[%E1 H1]". iDestruct (ex_self with "H2") as "[%E2 H2]".
  iDestruct (ex_elim with "H1") as "$". iDestruct (ex_elim with "H2") as "$". iPureIntro. split_and!.
  - iIntros "(H1 & H2 & H3)". iApply (ex_exist_intro _ _ m). iApply (ex_exist_intro _ _ n).
    iApply ex_sep_intro. iSplitL "H1"; [by iApply (ex_precise_intro with "H1")|].
    iApply ex_sep_intro. iFrame "H3". by iApply (ex_precise_intro with "H2").
  - etrans; [|apply map_union_subseteq_r; done]. by apply map_union_subseteq_r.
  - destruct E1 as [-> ?]. by rewrite (lookup_union_Some_l _ _ p (CRel (header r) m n)) // lookup_singleton.
Qed.
Lemma ex_runion_cons h p r u : ex h (runion p (r :: u)) ⊢ ∃ m n h2,
  p ↦ CRel (header r) m n ∗ mat_at m r ∗ ex h2 (runion n u) ∗
  <affine> ⌜p ↦ CRel (header r) m n ∗ mat_at m r ∗ ex h2 (runion n u) ⊢ ex h (runion p (r :: u))⌝.
Proof.
  iIntros "H". iDestruct (ex_runion_cons_in with "H") as (m n h2) "(H & M & U & % & % & %)".
  iExists m, n, h2. by iFrame.
Qed.

(** ** Relations *)
Lemma wp_new_node r (Q : _ → oprop) : (nrows r = 0 ∨ ncols r = 0 → rm r = []) →
  (∀ p, runion p [r] -∗ Q p) ⊢ wp (new_node r) Q.
Proof.
  iIntros (Hz) "K". iApply wp_bind. cbn [runion]. unfold mat_at.
  destruct ((nrows r =? 0) || (ncols r =? 0)) eqn:E.
  - iApply wp_ret. iApply wp_alloc. iIntros (p) "H". iApply "K". iExists NULL, NULL. iFrame "H". iSplit; [|done].
    iPureIntro. split; [done|]. apply Hz. lia.
  - iApply wp_alloc. iIntros (m) "M". iApply wp_alloc. iIntros (p) "H". iApply "K". iExists m, NULL. by iFrame.
Qed.

Lemma wp_relation_free_loop u : ∀ p fuel (Q : _ → oprop), (List.length u < fuel)%nat →
  runion p u ∗ Q tt ⊢ wp (relation_free_loop fuel p) Q.
Proof.
  induction u as [|r u IH]; intros p [|fuel] Q Hf; try (cbn in Hf; lia); cbn [relation_free_loop runion].
  - iIntros "[-> Q]". cbn. by iApply wp_ret.
  - iIntros "[(%m & %n & H & M & U) Q]". iDestruct (isnull_false with "H") as "[%E H]". rewrite E.
    iApply wp_bind. iApply wp_get_rel. iFrame "H". iIntros "H". iApply wp_bind.
    unfold osl_relation_free_inside_p. rewrite E. iApply wp_bind. iApply wp_get_rel. iFrame "H". iIntros "H".
    iAssert (wp (if isnull m then ret tt else free m) (λ _, emp)) with "[M]" as "W".
    { unfold mat_at. destruct ((nrows r =? 0) || (ncols r =? 0)).
      - iDestruct "M" as %[-> _]. by iApply wp_ret.
      - iDestruct (isnull_false with "M") as "[%Em M]". rewrite Em. iApply wp_free. by iFrame. }
    iApply wp_wand. iFrame "W". iIntros (_) "_". iApply wp_bind. iApply wp_free. iFrame "H".
    iApply IH; [cbn in Hf; lia|]. iFrame.
Qed.
Lemma wp_relation_free p u (Q : _ → oprop) : runion p u ∗ Q tt ⊢ wp (osl_relation_free_p p) Q.
Proof.
  apply (wp_loop_on (List.length u)); [apply runion_size|]. intros n Hn. by apply wp_relation_free_loop.
Qed.

Lemma wp_nb_components_loop u : ∀ h p fuel (Q : _ → oprop), (List.length u < fuel)%nat →
  ex h (runion p u) ∗ (ex h (runion p u) -∗ Q (osl_relation_nb_components u)) ⊢ wp (nb_components_loop fuel p) Q.
Proof.
  induction u as [|r u IH]; intros h p [|fuel] Q Hf; try (cbn in Hf; lia); cbn [nb_components_loop].
  - iIntros "[U Q]". iDestruct (ex_runion_isnull with "U") as "[%E U]". rewrite E. iApply wp_ret. by iApply "Q".
  - iIntros "[U Q]". iDestruct (ex_runion_cons with "U") as (m n h2) "(H & M & U & %C)". iDestruct (isnull_false with "H") as "[%E H]". rewrite E.
    iApply wp_bind. iApply wp_get_rel. iFrame "H". iIntros "H". iApply wp_bind. iApply IH; [cbn in Hf; lia|]. iFrame "U".
    iIntros "U". iApply wp_ret. cbn [osl_relation_nb_components]. rewrite (Z.add_comm _ 1). iApply "Q".
    iApply C. iFrame.
Qed.
Lemma wp_nb_components h p u (Q : _ → oprop) :
  ex h (runion p u) ∗ (ex h (runion p u) -∗ Q (osl_relation_nb_components u)) ⊢ wp (osl_relation_nb_components_p p) Q.
Proof.
  apply (wp_loop_on (List.length u)); [apply ex_runion_size|]. intros n Hn. by apply wp_nb_components_loop.
Qed.

Lemma clone_part_empty r n r' : clone_part r n = Ok r' → nrows r' = 0 ∨ ncols r' = 0 → rm r' = [].
Proof.
  unfold clone_part. intros H Hz.
  destruct (osl_relation_pmalloc (rprec r) n (ncols r)) as [node| | |] eqn:E; cbn [bind] in H; try discriminate.
  assert (nrows node = n ∧ ncols node = ncols r ∧ (n = 0 ∨ ncols r = 0 → rm node = [])) as (H1 & H2 & H3).
  { unfold osl_relation_pmalloc in E. repeat (destruct (_ && _); [discriminate|]).
    destruct ((n <? 0) || (ncols r <? 0)); [discriminate|].
    match type of E with bind ?x _ = _ => destruct x as [mm| | |] eqn:Em end; cbn [bind] in E; try discriminate.
    injection E as <-. cbn. split; [done|]. split; [done|]. intros Hz'.
    destruct ((n =? 0) || (ncols r =? 0)) eqn:Ez; [congruence|lia]. }
  match type of H with bind ?x _ = _ => destruct x as [m| | |] eqn:Em end; cbn [bind] in H; try discriminate.
  injection H as <-. cbn in Hz |- *. rewrite ->H1, ->H2 in Hz. rewrite ->(H3 Hz) in Em. clear -Em Hz.
  destruct Hz as [->|Hz].
  - cbn in Em. by injection Em.
  - rewrite Hz in Em. assert (∀ (f : Z → list (list Z) → Z → list (list Z) → res (list (list Z))) k i, for_loop k i (fun i m => cfor 0 0 (f i m) m) [] = Ok []) as X.
    { intros f k. induction k as [|k IH]; intros i; [done|]. cbn [for_loop]. unfold cfor at 1. cbn. apply IH. }
    unfold cfor at 1 in Em. rewrite (X (fun i _ j m => copy_cell (rprec r) (rm r) i j m i j)) in Em. by injection Em.
Qed.

(** The rest of the loop of osl_relation_nclone, once [prev] is the last node of
    the copy. *)
Lemma wp_nclone_rest k : ∀ h p u prev rp mp clone u' (Q : _ → oprop), nclone_loop k u = Ok u' →
  ex h (runion p u) ∗ prev ↦ CRel (header rp) mp NULL ∗ mat_at mp rp ∗
    (ex h (runion p u) -∗ runion prev (rp :: u') -∗ Q clone)
  ⊢ wp (relation_nclone_loop k p false clone prev) Q.
Proof.
  induction k as [|k IH]; intros h p u prev rp mp clone u' Q Hu; cbn [relation_nclone_loop]; cbn [nclone_loop] in Hu.
  - injection Hu as <-. iIntros "(U & P & M & K)". iApply wp_ret. iApply ("K" with "U"). cbn [runion].
    iExists mp, NULL. by iFrame.
  - destruct u as [|r u]; [discriminate|].
    destruct (clone_part r (nrows r)) as [r'| | |] eqn:Ec; cbn [bind] in Hu; try discriminate.
    destruct (nclone_loop k u) as [u1| | |] eqn:Eu; cbn [bind] in Hu; try discriminate. injection Hu as <-.
    iIntros "(U & P & MP & K)". iDestruct (ex_runion_cons with "U") as (m n h2) "(H & M & U & %C)".
    iApply wp_bind. iApply (wp_read_part p r m n). iFrame "H M". iIntros "H M".
    iApply wp_bind. iApply (wp_lift _ r'); [done|].
    iApply wp_bind. iApply wp_new_node; [by eapply clone_part_empty|]. iIntros (q) "N".
    cbn [runion]. iDestruct "N" as (mq nq) "(N & MQ & ->)".
    iApply wp_bind. iApply wp_set_rel_next. iFrame "P". iIntros "P".
    iApply (IH h2 n u q r' mq clone u1); [done|]. iFrame "U N MQ". iIntros "U N".
    iApply ("K" with "[H M U]"); [iApply C; iFrame|].
    iExists mp, q. iFrame.
Qed.
Lemma wp_nclone_loop k h p u u' (Q : _ → oprop) : nclone_loop k u = Ok u' →
  ex h (runion p u) ∗ (∀ q, ex h (runion p u) -∗ runion q u' -∗ Q q)
  ⊢ wp (relation_nclone_loop k p true NULL NULL) Q.
Proof.
  intros Hu. destruct k as [|k]; cbn [relation_nclone_loop]; cbn [nclone_loop] in Hu.
  - injection Hu as <-. iIntros "(U & K)". iApply wp_ret. by iApply ("K" with "U").
  - destruct u as [|r u]; [discriminate|].
    destruct (clone_part r (nrows r)) as [r'| | |] eqn:Ec; cbn [bind] in Hu; try discriminate.
    destruct (nclone_loop k u) as [u1| | |] eqn:Eu; cbn [bind] in Hu; try discriminate. injection Hu as <-.
    iIntros "(U & K)". iDestruct (ex_runion_cons with "U") as (m n h2) "(H & M & U & %C)".
    iApply wp_bind. iApply (wp_read_part p r m n). iFrame "H M". iIntros "H M".
    iApply wp_bind. iApply (wp_lift _ r'); [done|].
    iApply wp_bind. iApply wp_new_node; [by eapply clone_part_empty|]. iIntros (q) "N".
    cbn [runion]. iDestruct "N" as (mq nq) "(N & MQ & ->)".
    iApply (wp_nclone_rest k h2 n u q r' mq q u1); [done|]. iFrame "U N MQ". iIntros "U N".
    iApply ("K" with "[H M U]"); [iApply C; iFrame|]. done.
Qed.
Lemma wp_relation_nclone h p u n u' (Q : _ → oprop) : osl_relation_nclone u n = Ok u' →
  ex h (runion p u) ∗ (∀ q, ex h (runion p u) -∗ runion q u' -∗ Q q) ⊢ wp (osl_relation_nclone_p p n) Q.
Proof.
  unfold osl_relation_nclone, osl_relation_nclone_p. intros Hu.
  destruct (osl_relation_nb_components u <? _) eqn:E; [discriminate|].
  iIntros "[U K]". iApply wp_bind. iApply (wp_nb_components h p u). iFrame "U". iIntros "U".
  rewrite E. iApply (wp_nclone_loop _ h p u u'); [done|]. iFrame.
Qed.
Lemma wp_relation_clone h p u u' (Q : _ → oprop) : osl_relation_clone u = Ok u' →
  ex h (runion p u) ∗ (∀ q, ex h (runion p u) -∗ runion q u' -∗ Q q) ⊢ wp (osl_relation_clone_p p) Q.
Proof.
  intros Hu. iIntros "[U K]". iDestruct (ex_runion_isnull with "U") as "[%E U]". unfold osl_relation_clone_p.
  rewrite E. destruct u as [|r u].
  - cbn in Hu. injection Hu as <-. iApply wp_ret. by iApply ("K" with "U").
  - iApply (wp_relation_nclone h p (r :: u) (-1) u'); [exact Hu|]. iFrame.
Qed.

Lemma wp_relation_add_loop u : ∀ p r r2 v fuel (Q : _ → oprop), (List.length u < fuel)%nat →
  runion p (r :: u) ∗ runion r2 v ∗ (runion p ((r :: u) ++ v) -∗ Q tt) ⊢ wp (relation_add_loop fuel p r2) Q.
Proof.
  induction u as [|r1 u IH]; intros p r r2 v [|fuel] Q Hf; try (cbn in Hf; lia); cbn [relation_add_loop].
  - cbn [runion app]. iIntros "((%m & %n & H & M & ->) & V & K)". iApply wp_bind. iApply wp_get_rel. iFrame "H". iIntros "H".
    rewrite isnull_null. iApply wp_set_rel_next. iFrame "H". iIntros "H". iApply "K". iExists m, r2. iFrame.
  - cbn [runion]. iIntros "((%m & %n & H & M & U) & V & K)". iApply wp_bind. iApply wp_get_rel. iFrame "H". iIntros "H".
    iDestruct (runion_nonnull n r1 u with "U") as "[%E U]". rewrite E.
    iApply (IH n r1 r2 v); [cbn in Hf; lia|]. iFrame "U V". iIntros "U". iApply "K".
    cbn [app runion]. iExists m, n. iFrame.
Qed.
Lemma wp_relation_add p u q v (Q : _ → oprop) :
  runion p u ∗ runion q v ∗ (runion (if isnull p then q else p) (u ++ v) -∗ Q (if isnull p then q else p))
  ⊢ wp (osl_relation_add_p p q) Q.
Proof.
  iIntros "(U & V & K)". iDestruct (runion_isnull with "U") as "[%E U]". unfold osl_relation_add_p. rewrite E.
  destruct u as [|r u].
  - cbn [runion app]. iDestruct "U" as "_". iApply wp_ret. by iApply "K".
  - iApply wp_bind. iCombine "V K" as "K". iCombine "U K" as "K". iStopProof.
    apply (wp_loop_on (List.length (r :: u))); [apply runion_size|]. intros n Hn.
    iIntros "(U & V & K)". iApply (wp_relation_add_loop u p r q v); [cbn in Hn; lia|]. iFrame "U V". iIntros "U".
    iApply wp_ret. by iApply "K".
Qed.
Lemma osl_relation_add_app u v : osl_relation_add u v = u ++ v.
Proof. induction u as [|r u IH]; cbn; [done|by rewrite IH]. Qed.
Lemma wp_relation_union h1 h2 p u q v w (Q : _ → oprop) : osl_relation_union u v = Ok w →
  ex h1 (runion p u) ∗ ex h2 (runion q v) ∗ (∀ h, ex h1 (runion p u) -∗ ex h2 (runion q v) -∗ runion h w -∗ Q h) ⊢ wp (osl_relation_union_p p q) Q.
Proof.
  intros Hw. iIntros "(U & V & K)". unfold osl_relation_union_p.
  iDestruct (ex_runion_isnull h1 p u with "U") as "[%Eu U]". iDestruct (ex_runion_isnull h2 q v with "V") as "[%Ev V]".
  rewrite Eu Ev. destruct u as [|r u], v as [|s v]; cbn [andb].
  { cbn in Hw. injection Hw as <-. iApply wp_ret. by iApply ("K" with "U V"). }
  all: unfold osl_relation_union in Hw;
    match type of Hw with bind ?x _ = _ => destruct x as [c1| | |] eqn:E1 end; cbn [bind] in Hw; try discriminate;
    match type of Hw with bind ?x _ = _ => destruct x as [c2| | |] eqn:E2 end; cbn [bind] in Hw; try discriminate;
    injection Hw as <-; rewrite osl_relation_add_app;
    iApply wp_bind; iApply (wp_relation_clone h1 p _ c1); [done|]; iFrame "U"; iIntros (q1) "U C1";
    iApply wp_bind; iApply (wp_relation_clone h2 q _ c2); [done|]; iFrame "V"; iIntros (q2) "V C2";
    iApply (wp_relation_add q1 c1 q2 c2); iFrame "C1 C2"; iIntros "H"; iApply ("K" with "U V H").
Qed.

(** Part of a union, from [p] up to the node [q] excluded. *)
Fixpoint rseg (p : ptr) (u : list relation) (q : ptr) : oprop :=
  match u with
  | [] => <affine> ⌜p = q⌝
  | r :: u' => ∃ m n, p ↦ CRel (header r) m n ∗ mat_at m r ∗ rseg n u' q
  end.
Lemma rseg_app p u q v : rseg p u q ∗ runion q v ⊢ runion p (u ++ v).
Proof.
  revert p. induction u as [|r u IH]; intros p; cbn [rseg runion app].
  - by iIntros "[-> V]".
  - iIntros "[(%m & %n & H & M & U) V]". iExists m, n. iFrame "H M". iApply IH. iFrame.
Qed.
Lemma runion_cut u v : ∀ p, runion p (u ++ v) ⊢ ∃ q, rseg p u q ∗ runion q v.
Proof.
  induction u as [|r u IH]; intros p; cbn [rseg runion app].
  - iIntros "V". iExists p. by iFrame.
  - iIntros "(%m & %n & H & M & U)". iDestruct (IH with "U") as (q) "[U V]". iExists q. iFrame "V".
    iExists m, n. iFrame.
Qed.
Lemma rseg_size p u q : rseg p u q ⊢ size_ge (List.length u).
Proof.
  revert p. induction u as [|r u IH]; intros p; [apply size_ge_0|]. cbn [rseg List.length].
  iIntros "(%m & %n & H & M & U)".
  iApply (size_ge_sep (p ↦ CRel (header r) m n ∗ mat_at m r) _ 1 (List.length u)); [|apply IH|iFrame].
  iIntros "[H M]". iApply (size_ge_frame _ (mat_at m r)). iFrame "M". by iApply size_ge_cell.
Qed.

Lemma cell_neq p v q w : p ↦ v ∗ q ↦ w ⊢ <affine> ⌜Z.eqb p q = false⌝ ∗ p ↦ v ∗ q ↦ w.
Proof.
  iIntros "[P Q]". destruct (Z.eqb_spec p q) as [->|E].
  - iExFalso. iApply pointsto_excl. iFrame.
  - by iFrame.
Qed.

(** Removing a part that is not the first one frees it. *)
Lemma wp_remove_part_loop u : ∀ p prev rp mp q r m n v fuel (Q : _ → oprop), (List.length u < fuel)%nat →
  prev ↦ CRel (header rp) mp p ∗ mat_at mp rp ∗ rseg p u q ∗ q ↦ CRel (header r) m n ∗ mat_at m r ∗ runion n v ∗
    (runion prev (rp :: u ++ v) -∗ Q tt) ⊢ wp (remove_part_loop fuel p prev q) Q.
Proof.
  induction u as [|r1 u IH]; intros p prev rp mp q r m n v [|fuel] Q Hf; try (cbn in Hf; lia); cbn [remove_part_loop rseg app].
  - iIntros "(P & MP & -> & H & M & V & K)". iDestruct (isnull_false with "H") as "[%E H]". rewrite E.
    iApply wp_bind. iApply wp_get_rel. iFrame "H". iIntros "H". rewrite Z.eqb_refl.
    iApply wp_bind. iApply wp_set_rel_next. iFrame "P". iIntros "P".
    iApply wp_bind. iApply wp_set_rel_next. iFrame "H". iIntros "H".
    iApply (wp_relation_free q [r]). iSplitL "H M".
    + cbn [runion]. iExists m, NULL. by iFrame.
    + iApply "K". cbn [runion]. iExists mp, n. iFrame.
  - iIntros "(P & MP & (%m1 & %n1 & H1 & M1 & U) & H & M & V & K)". iDestruct (isnull_false with "H1") as "[%E H1]". rewrite E.
    iApply wp_bind. iApply wp_get_rel. iFrame "H1". iIntros "H1".
    iDestruct (cell_neq with "[$H1 $H]") as "(%Ne & H1 & H)". rewrite Ne.
    iApply (IH n1 p r1 m1 q r m n v); [cbn in Hf; lia|]. iFrame "H1 M1 U H M V". iIntros "U". iApply "K".
    cbn [runion]. iExists mp, p. iFrame.
Qed.
Lemma wp_remove_part p rp u q r m n v (Q : _ → oprop) :
  rseg p (rp :: u) q ∗ q ↦ CRel (header r) m n ∗ mat_at m r ∗ runion n v ∗
    (runion p (rp :: u ++ v) -∗ Q p) ⊢ wp (osl_relation_remove_part_p p q) Q.
Proof.
  cbn [rseg]. iIntros "((%mp & %np & P & MP & U) & H & M & V & K)". unfold osl_relation_remove_part_p.
  iDestruct (isnull_false with "P") as "[%Ep P]". iDestruct (isnull_false with "H") as "[%Eq H]". rewrite Ep Eq. cbn [orb].
  iDestruct (cell_neq with "[$P $H]") as "(%Ne & P & H)". rewrite Ne.
  iApply wp_bind. iApply wp_get_rel. iFrame "P". iIntros "P". iApply wp_bind.
  iCombine "P MP H M V K" as "K". iCombine "U K" as "K". iStopProof.
  apply (wp_loop_on (List.length u)); [apply rseg_size|]. intros k Hk.
  iIntros "(U & P & MP & H & M & V & K)". iApply (wp_remove_part_loop u np p rp mp q r m n v); [done|]. iFrame "P MP U H M V".
  iIntros "U". iApply wp_ret. by iApply "K".
Qed.
(** A part that is not in the union: nothing happens. *)
Lemma wp_remove_part_absent_loop part u : ∀ h p prev fuel (Q : _ → oprop), (List.length u < fuel)%nat →
  h !! part = None →
  ex h (runion p u) ∗ (ex h (runion p u) -∗ Q tt) ⊢ wp (remove_part_loop fuel p prev part) Q.
Proof.
  induction u as [|r u IH]; intros h p prev [|fuel] Q Hf Hp; try (cbn in Hf; lia); cbn [remove_part_loop].
  - iIntros "[U Q]". iDestruct (ex_runion_isnull with "U") as "[%E U]". rewrite E. iApply wp_ret. by iApply "Q".
  - iIntros "[U Q]". iDestruct (ex_runion_cons_in with "U") as (m n h2) "(H & M & U & %C & %D & %Dp)".
    iDestruct (isnull_false with "H") as "[%E H]". rewrite E.
    iApply wp_bind. iApply wp_get_rel. iFrame "H". iIntros "H".
    destruct (Z.eqb_spec p part) as [->|Hne]; [congruence|]. iApply (IH h2); [cbn in Hf; lia| |].
    { destruct (h2 !! part) eqn:E2; [|done]. by rewrite (lookup_weaken _ _ _ _ E2 D) in Hp. }
    iFrame "U". iIntros "U". iApply "Q". iApply C. iFrame.
Qed.
Lemma wp_remove_part_absent part h p u (Q : _ → oprop) : h !! part = None →
  ex h (runion p u) ∗ (ex h (runion p u) -∗ Q p) ⊢ wp (osl_relation_remove_part_p p part) Q.
Proof.
  iIntros (Hp) "[U Q]". iDestruct (ex_runion_isnull with "U") as "[%E U]". unfold osl_relation_remove_part_p. rewrite E.
  destruct u as [|r u]; cbn [orb].
  - iApply wp_ret. by iApply "Q".
  - destruct (isnull part).
    { iApply wp_ret. by iApply "Q". }
    iDestruct (ex_runion_cons_in with "U") as (m n h2) "(H & M & U & %C & %D & %Dp)".
    destruct (Z.eqb_spec p part) as [->|Hne]; [congruence|].
    iApply wp_bind. iApply wp_get_rel. iFrame "H". iIntros "H".
    iApply wp_bind. iCombine "H M Q" as "K". iCombine "U K" as "K". iStopProof.
    apply (wp_loop_on (List.length u)); [apply ex_runion_size|]. intros k Hk. iIntros "(U & H & M & Q)".
    iApply (wp_remove_part_absent_loop part u h2 n p); [done| |].
    { destruct (h2 !! part) eqn:E2; [|done]. by rewrite (lookup_weaken _ _ _ _ E2 D) in Hp. }
    iFrame "U". iIntros "U". iApply wp_ret. iApply "Q". iApply C. iFrame.
Qed.
(** Removing the first part unlinks it but leaves it allocated. *)
Lemma wp_remove_part_head q r m n (Q : _ → oprop) :
  q ↦ CRel r m n ∗ (q ↦ CRel r m n -∗ Q n) ⊢ wp (osl_relation_remove_part_p q q) Q.
Proof.
  iIntros "(H & K)". unfold osl_relation_remove_part_p.
  iDestruct (isnull_false with "H") as "[%Eq H]". rewrite Eq Z.eqb_refl. cbn [orb].
  iApply wp_bind. iApply wp_get_rel. iFrame "H". iIntros "H". iApply wp_ret. by iApply "K".
Qed.

(** ** Relation lists *)
Lemma rlist_nonnull p u l : rlist p (u :: l) ⊢ <affine> ⌜isnull p = false⌝ ∗ rlist p (u :: l).
Proof.
  cbn [rlist]. iIntros "(%e & %n & H & ?)". iDestruct (isnull_false with "H") as "[$ H]". iExists e, n. iFrame.
Qed.
Lemma rlist_isnull p l : rlist p l ⊢ <affine> ⌜isnull p = match l with [] => true | _ => false end⌝ ∗ rlist p l.
Proof. destruct l as [|u l]; [|apply rlist_nonnull]. cbn [rlist]. iIntros "%E". subst p. done. Qed.
Lemma rlist_size p l : rlist p l ⊢ size_ge (List.length l).
Proof.
  revert p. induction l as [|u l IH]; intros p; [apply size_ge_0|]. cbn [rlist List.length].
  iIntros "(%e & %n & H & E & L)".
  iApply (size_ge_sep (p ↦ CList e n ∗ runion e u) _ 1 (List.length l)); [|apply IH|iFrame].
  iIntros "[H E]". iApply (size_ge_frame _ (runion e u)). iFrame "E". by iApply size_ge_cell.
Qed.

Lemma wp_list_free_loop l : ∀ p fuel (Q : _ → oprop), (List.length l < fuel)%nat →
  rlist p l ∗ Q tt ⊢ wp (list_free_loop fuel p) Q.
Proof.
  induction l as [|u l IH]; intros p [|fuel] Q Hf; try (cbn in Hf; lia); cbn [list_free_loop rlist].
  - iIntros "[-> Q]". by iApply wp_ret.
  - iIntros "[(%e & %n & H & E & L) Q]". iDestruct (isnull_false with "H") as "[%Ep H]". rewrite Ep.
    iApply wp_bind. iApply wp_get_list. iFrame "H". iIntros "H". iApply wp_bind.
    iAssert (wp (if isnull e then ret tt else osl_relation_free_p e) (λ _, emp)) with "[E]" as "W".
    { iDestruct (runion_isnull with "E") as "[%Ee E]". rewrite Ee. destruct u.
      - iApply wp_ret. by iDestruct "E" as "_".
      - iApply wp_relation_free. by iFrame. }
    iApply wp_wand. iFrame "W". iIntros (_) "_". iApply wp_bind. iApply wp_get_list. iFrame "H". iIntros "H".
    iApply wp_bind. iApply wp_free. iFrame "H". iApply IH; [cbn in Hf; lia|]. iFrame.
Qed.
Lemma wp_list_free p l (Q : _ → oprop) : rlist p l ∗ Q tt ⊢ wp (osl_relation_list_free_p p) Q.
Proof.
  iIntros "[L Q]". iDestruct (rlist_isnull with "L") as "[%E L]". unfold osl_relation_list_free_p. rewrite E.
  destruct l as [|u l].
  - iApply wp_ret. by iDestruct "L" as "_".
  - iCombine "L Q" as "K". iStopProof. apply (wp_loop_on (List.length (u :: l))); [apply rlist_size|].
    intros n Hn. by apply wp_list_free_loop.
Qed.

Lemma wp_list_node h p u u' (Q : _ → oprop) : osl_relation_clone u = Ok u' →
  ex h (runion p u) ∗ (∀ q, ex h (runion p u) -∗ rlist q (match u with [] => [] | _ => [u'] end) -∗ Q q)
  ⊢ wp (osl_relation_list_node_p p) Q.
Proof.
  intros Hu. iIntros "[U K]". iDestruct (ex_runion_isnull with "U") as "[%E U]". unfold osl_relation_list_node_p. rewrite E.
  destruct u as [|r u].
  - iApply wp_ret. by iApply ("K" with "U").
  - iApply wp_bind. iApply wp_alloc. iIntros (q) "N". iApply wp_bind. iApply (wp_relation_clone h p _ u'); [done|].
    iFrame "U". iIntros (c) "U C". iApply wp_bind. iApply wp_get_list. iFrame "N". iIntros "N".
    iApply wp_bind. iApply wp_store. iFrame "N". iIntros "N". iApply wp_ret. iApply ("K" with "U").
    cbn [rlist]. iExists c, NULL. by iFrame.
Qed.

Lemma ex_rlist_isnull h p l :
  ex h (rlist p l) ⊢ <affine> ⌜isnull p = match l with [] => true | _ => false end⌝ ∗ ex h (rlist p l).
Proof. apply ex_pure. iIntros "H". by iDestruct (rlist_isnull with "H") as "[% _]". Qed.
Lemma ex_rlist_size h p l : ex h (rlist p l) ⊢ size_ge (List.length l).
Proof. iIntros "H". iApply rlist_size. by iApply ex_elim. Qed.
Lemma ex_rlist_cons h p u l : ex h (rlist p (u :: l)) ⊢ ∃ e n h1 h2,
  p ↦ CList e n ∗ ex h1 (runion e u) ∗ ex h2 (rlist n l) ∗
  <affine> ⌜p ↦ CList e n ∗ ex h1 (runion e u) ∗ ex h2 (rlist n l) ⊢ ex h (rlist p (u :: l))⌝.
Proof.
  cbn [rlist]. iIntros "H". iDestruct (ex_exist_elim with "H") as (e) "H". iDestruct (ex_exist_elim with "H") as (n) "H".
  iDestruct (ex_sep_elim with "H") as (h1 h23) "(H1 & H & -> & %D1)". iDestruct (ex_sep_elim with "H") as (h2 h3) "(H2 & H3 & -> & %D2)".
  iExists e, n, h2, h3. iFrame "H2 H3".
  iDestruct (ex_self with "H1") as "[%E1 H1]". iDestruct (ex_elim with "H1") as "$". iPureIntro.
  iIntros "(H1 & H2 & H3)". iApply (ex_exist_intro _ _ e). iApply (ex_exist_intro _ _ n).
  iApply ex_sep_intro. iSplitL "H1"; [by iApply (ex_precise_intro with "H1")|].
  iApply ex_sep_intro. iFrame.
Qed.

(** The copy of one node. *)
Definition clone_list (l : list (list relation)) : res (list (list relation)) := mapM osl_relation_clone l.
Lemma wp_list_clone_rest l : ∀ h p prev ep up clone l' fuel (Q : _ → oprop), (List.length l < fuel)%nat → clone_list l = Ok l' →
  ex h (rlist p l) ∗ prev ↦ CList ep NULL ∗ runion ep up ∗
    (ex h (rlist p l) -∗ rlist prev (up :: l') -∗ Q clone)
  ⊢ wp (list_clone_loop fuel p false clone prev) Q.
Proof.
  induction l as [|u l IH]; intros h p prev ep up clone l' [|fuel] Q Hf Hl; try (cbn in Hf; lia);
    cbn [list_clone_loop]; unfold clone_list in Hl; cbn [mapM] in Hl.
  - injection Hl as <-. iIntros "(L & P & E & K)". iDestruct (ex_rlist_isnull with "L") as "[%Ep L]". rewrite Ep.
    iApply wp_ret. iApply ("K" with "L"). cbn [rlist]. iExists ep, NULL. by iFrame.
  - destruct (osl_relation_clone u) as [u'| | |] eqn:Eu; cbn [bind] in Hl; try discriminate.
    destruct (mapM osl_relation_clone l) as [l1| | |] eqn:El; cbn [bind] in Hl; try discriminate. injection Hl as <-.
    iIntros "(L & P & EP & K)". iDestruct (ex_rlist_cons with "L") as (e n h1 h2) "(H & E & L & %C)".
    iDestruct (isnull_false with "H") as "[%Ep H]". rewrite Ep.
    iApply wp_bind. iApply wp_alloc. iIntros (q) "N". iApply wp_bind. iApply wp_get_list. iFrame "H". iIntros "H".
    iApply wp_bind. iApply (wp_relation_clone h1 e u u'); [done|]. iFrame "E". iIntros (c) "E C".
    iApply wp_bind. iApply wp_get_list. iFrame "N". iIntros "N". iApply wp_bind. iApply wp_store. iFrame "N". iIntros "N".
    iApply wp_bind. iApply wp_get_list. iFrame "H". iIntros "H".
    iApply wp_bind. iApply wp_set_list_next. iFrame "P". iIntros "P".
    iApply (IH h2 n q c u' clone l1); [cbn in Hf; lia|done|]. iFrame "L N C". iIntros "L N".
    iApply ("K" with "[H E L]"); [iApply C; iFrame|]. cbn [rlist]. iExists ep, q. iFrame.
Qed.
Lemma wp_list_clone h p l l' (Q : _ → oprop) : clone_list l = Ok l' →
  ex h (rlist p l) ∗ (∀ q, ex h (rlist p l) -∗ rlist q l' -∗ Q q) ⊢ wp (osl_relation_list_clone_p p) Q.
Proof.
  intros Hl. apply (wp_loop_on (List.length l)); [apply ex_rlist_size|]. intros fuel Hf.
  destruct fuel as [|fuel]; [lia|]. cbn [list_clone_loop]. destruct l as [|u l]; unfold clone_list in Hl; cbn [mapM] in Hl.
  - injection Hl as <-. iIntros "[L K]". iDestruct (ex_rlist_isnull with "L") as "[%Ep L]". rewrite Ep.
    iApply wp_ret. by iApply ("K" with "L").
  - destruct (osl_relation_clone u) as [u'| | |] eqn:Eu; cbn [bind] in Hl; try discriminate.
    destruct (mapM osl_relation_clone l) as [l1| | |] eqn:El; cbn [bind] in Hl; try discriminate. injection Hl as <-.
    iIntros "(L & K)". iDestruct (ex_rlist_cons with "L") as (e n h1 h2) "(H & E & L & %C)".
    iDestruct (isnull_false with "H") as "[%Ep H]". rewrite Ep.
    iApply wp_bind. iApply wp_alloc. iIntros (q) "N". iApply wp_bind. iApply wp_get_list. iFrame "H". iIntros "H".
    iApply wp_bind. iApply (wp_relation_clone h1 e u u'); [done|]. iFrame "E". iIntros (c) "E C".
    iApply wp_bind. iApply wp_get_list. iFrame "N". iIntros "N". iApply wp_bind. iApply wp_store. iFrame "N". iIntros "N".
    iApply wp_bind. iApply wp_get_list. iFrame "H". iIntros "H".
    iApply (wp_list_clone_rest l h2 n q c u' q l1); [cbn in Hf; lia|done|]. iFrame "L N C". iIntros "L N".
    iApply ("K" with "[H E L]"); [iApply C; iFrame|]. done.
Qed.

Lemma wp_list_end_loop l : ∀ p u q v fuel (Q : _ → oprop), (List.length l < fuel)%nat →
  rlist p (u :: l) ∗ rlist q v ∗ (rlist p ((u :: l) ++ v) -∗ Q tt) ⊢ wp (list_end_loop fuel p q) Q.
Proof.
  induction l as [|u1 l IH]; intros p u q v [|fuel] Q Hf; try (cbn in Hf; lia); cbn [list_end_loop].
  - cbn [rlist app]. iIntros "((%e & %n & H & E & ->) & V & K)". iApply wp_bind. iApply wp_get_list. iFrame "H". iIntros "H".
    rewrite isnull_null. iApply wp_set_list_next. iFrame "H". iIntros "H". iApply "K". iExists e, q. iFrame.
  - cbn [rlist]. iIntros "((%e & %n & H & E & L) & V & K)". iApply wp_bind. iApply wp_get_list. iFrame "H". iIntros "H".
    iDestruct (rlist_nonnull n u1 l with "L") as "[%En L]". rewrite En.
    iApply (IH n u1 q v); [cbn in Hf; lia|]. iFrame "L V". iIntros "L". iApply "K".
    cbn [app rlist]. iExists e, n. iFrame.
Qed.
Lemma wp_list_add p l q v (Q : _ → oprop) :
  rlist p l ∗ rlist q v ∗ (∀ h, rlist h (l ++ v) -∗ Q h) ⊢ wp (osl_relation_list_add_p p q) Q.
Proof.
  iIntros "(L & V & K)". iDestruct (rlist_isnull with "L") as "[%E L]". unfold osl_relation_list_add_p. rewrite E.
  destruct l as [|u l].
  - cbn [rlist app]. iDestruct "L" as "_". iApply wp_ret. by iApply "K".
  - iApply wp_bind. iCombine "V K" as "K". iCombine "L K" as "K". iStopProof.
    apply (wp_loop_on (List.length (u :: l))); [apply rlist_size|]. intros n Hn.
    iIntros "(L & V & K)". iApply (wp_list_end_loop l p u q v); [cbn in Hn; lia|]. iFrame "L V". iIntros "L".
    iApply wp_ret. by iApply "K".
Qed.

(** A list without its last link. *)
Lemma wp_list_last_loop l : ∀ p u fuel (Q : _ → oprop), (List.length l < fuel)%nat →
  rlist p (u :: l) ∗
    (∀ q, (∃ e x, q ↦ CList e NULL ∗ (∀ c v, q ↦ CList e c -∗ rlist c v -∗ rlist p ((u :: l) ++ v)) ∗ <affine> ⌜x = tt⌝) -∗ Q q)
  ⊢ wp (list_last_loop fuel p) Q.
Proof.
  induction l as [|u1 l IH]; intros p u [|fuel] Q Hf; try (cbn in Hf; lia); cbn [list_last_loop].
  - cbn [rlist app]. iIntros "((%e & %n & H & E & ->) & K)". iApply wp_bind. iApply wp_get_list. iFrame "H". iIntros "H".
    rewrite isnull_null. iApply wp_ret. iApply "K". iExists e, tt. iFrame "H". iSplitL; [|done].
    iIntros (c v) "H V". iExists e, c. iFrame.
  - cbn [rlist]. iIntros "((%e & %n & H & E & L) & K)". iApply wp_bind. iApply wp_get_list. iFrame "H". iIntros "H".
    iDestruct (rlist_nonnull n u1 l with "L") as "[%En L]". rewrite En.
    iApply (IH n u1); [cbn in Hf; lia|]. iFrame "L". iIntros (q) "(%e1 & %x & Hq & W & %Hx)". iApply "K".
    iExists e1, x. iFrame "Hq". iSplitL; [|done]. iIntros (c v) "Hq V". iDestruct ("W" with "Hq V") as "L".
    cbn [app rlist]. iExists e, n. iFrame.
Qed.
Lemma wp_list_concat h1 h2 p l q v l' v' (Q : _ → oprop) : clone_list l = Ok l' → clone_list v = Ok v' →
  ex h1 (rlist p l) ∗ ex h2 (rlist q v) ∗ (∀ h, ex h1 (rlist p l) -∗ ex h2 (rlist q v) -∗ rlist h (l' ++ v') -∗ Q h)
  ⊢ wp (osl_relation_list_concat_p p q) Q.
Proof.
  intros Hl Hv. iIntros "(L & V & K)". unfold osl_relation_list_concat_p.
  iDestruct (ex_rlist_isnull h1 p with "L") as "[%El L]". iDestruct (ex_rlist_isnull h2 q with "V") as "[%Ev V]". rewrite El Ev.
  destruct l as [|u l].
  { cbn in Hl. injection Hl as <-. iApply (wp_list_clone h2 q v v'); [done|]. iFrame "V". iIntros (h) "V H".
    iApply ("K" with "L V H"). }
  destruct v as [|w v].
  { cbn in Hv. injection Hv as <-. iApply (wp_list_clone h1 p (u :: l) l'); [done|]. iFrame "L". iIntros (h) "L H".
    rewrite app_nil_r. iApply ("K" with "L V H"). }
  iApply wp_bind. iApply (wp_list_clone h1 p (u :: l) l'); [done|]. iFrame "L". iIntros (h) "L H".
  assert (∃ u' l1, l' = u' :: l1) as (u' & l1 & ->).
  { unfold clone_list in Hl. cbn [mapM] in Hl. destruct (osl_relation_clone u); cbn [bind] in Hl; try discriminate.
    destruct (mapM _ l); cbn [bind] in Hl; try discriminate. injection Hl as <-. eauto. }
  iApply wp_bind. iCombine "L V K" as "K". iCombine "H K" as "K". iStopProof.
  apply (wp_loop_on (List.length (u' :: l1))); [apply rlist_size|]. intros k Hk. iIntros "(H & L & V & K)".
  iApply (wp_list_last_loop l1 h u'); [cbn in Hk; lia|]. iFrame "H". iIntros (z) "(%e & %x & Hz & W & _)".
  iApply wp_bind. iApply (wp_list_clone h2 q (w :: v) v'); [done|]. iFrame "V". iIntros (c) "V C".
  iApply wp_bind. iApply wp_set_list_next. iFrame "Hz". iIntros "Hz". iApply wp_ret.
  iApply ("K" with "L V"). iApply ("W" with "Hz C").
Qed.

(** Stack operations: a node is a list of one element. *)
Lemma wp_list_push h l p u (Q : _ → oprop) :
  rlist h l ∗ rlist p [u] ∗ (rlist p (u :: l) -∗ Q p) ⊢ wp (osl_relation_list_push_p h p) Q.
Proof.
  iIntros "(L & P & K)". iDestruct (rlist_nonnull with "P") as "[%E P]". unfold osl_relation_list_push_p. rewrite E.
  cbn [rlist]. iDestruct "P" as (e n) "(P & U & ->)". iApply wp_bind. iApply wp_set_list_next. iFrame "P". iIntros "P".
  iApply wp_ret. iApply "K". iExists e, h. iFrame.
Qed.
Lemma wp_list_push_null h l (Q : _ → oprop) : rlist h l ∗ (rlist h l -∗ Q h) ⊢ wp (osl_relation_list_push_p h NULL) Q.
Proof. iIntros "(L & K)". iApply wp_ret. by iApply "K". Qed.
Lemma wp_list_pop h l (Q : _ → oprop) :
  rlist h l ∗ (∀ h', rlist h (firstn 1 l) -∗ rlist h' (tail l) -∗ Q (h, h')) ⊢ wp (osl_relation_list_pop_p h) Q.
Proof.
  iIntros "(L & K)". iDestruct (rlist_isnull with "L") as "[%E L]". unfold osl_relation_list_pop_p. rewrite E.
  destruct l as [|u l]; cbn [rlist firstn tail].
  - iDestruct "L" as "->". iApply wp_ret. by iApply "K".
  - iDestruct "L" as (e n) "(H & U & L)". iApply wp_bind. iApply wp_get_list. iFrame "H". iIntros "H".
    iApply wp_bind. iApply wp_set_list_next. iFrame "H". iIntros "H". iApply wp_ret.
    iApply ("K" with "[H U] L"). rewrite firstn_O. cbn [rlist]. iExists e, NULL. by iFrame.
Qed.
Lemma wp_list_drop h l (Q : _ → oprop) :
  rlist h l ∗ (∀ h', rlist h' (tail l) -∗ Q h') ⊢ wp (osl_relation_list_drop_p h) Q.
Proof.
  iIntros "(L & K)". iApply wp_bind. iApply (wp_list_pop h l). iFrame "L". iIntros (h') "T L".
  iApply wp_bind. iApply wp_list_free. iFrame "T". iApply wp_ret. by iApply "K".
Qed.
Lemma wp_list_dup h u l u' (Q : _ → oprop) : osl_relation_clone u = Ok u' →
  rlist h (u :: l) ∗ (rlist h (u :: u' :: l) -∗ Q h) ⊢ wp (osl_relation_list_dup_p h) Q.
Proof.
  intros Hu. iIntros "(L & K)". iApply wp_bind. iApply (wp_list_pop h (u :: l)). iFrame "L". iIntros (h') "T L".
  cbn [firstn tail]. rewrite firstn_O. iDestruct (ex_intro with "T") as (ht) "T". iApply wp_bind. iApply (wp_list_clone ht h [u] [u']).
  { unfold clone_list. cbn [mapM]. by rewrite Hu. }
  iFrame "T". iIntros (c) "T C". iDestruct (ex_elim with "T") as "T". iApply wp_bind. iApply (wp_list_push h' l c u'). iFrame "L C". iIntros "L".
  iApply (wp_list_push c (u' :: l) h u). iFrame "L T". done.
Qed.
Lemma wp_list_dup_null (Q : _ → oprop) : Q NULL ⊢ wp (osl_relation_list_dup_p NULL) Q.
Proof.
  iIntros "Q". iApply wp_bind. iApply wp_ret. iApply wp_bind. iApply (wp_list_clone ∅ NULL [] []); [done|].
  iSplitR; [by iApply (ex_precise_intro ∅ (<affine> ⌜NULL = NULL⌝))|]. iIntros (c) "T C". iDestruct (ex_elim with "T") as "_". cbn [rlist]. iDestruct "C" as "->". iApply wp_bind. iApply wp_ret. by iApply wp_ret.
Qed.
Lemma wp_list_destroy_loop l : ∀ h fuel (Q : _ → oprop), (List.length l < fuel)%nat →
  rlist h l ∗ Q NULL ⊢ wp (list_destroy_loop fuel h) Q.
Proof.
  induction l as [|u l IH]; intros h [|fuel] Q Hf; try (cbn in Hf; lia); cbn [list_destroy_loop].
  - cbn [rlist]. iIntros "[-> Q]". by iApply wp_ret.
  - iIntros "[L Q]". iDestruct (rlist_nonnull with "L") as "[%E L]". rewrite E. iApply wp_bind.
    iApply (wp_list_drop h (u :: l)). iFrame "L". iIntros (h') "L". iApply IH; [cbn in Hf; lia|]. iFrame.
Qed.
Lemma wp_list_destroy h l (Q : _ → oprop) : rlist h l ∗ Q NULL ⊢ wp (osl_relation_list_destroy_p h) Q.
Proof. apply (wp_loop_on (List.length l)); [apply rlist_size|]. intros n Hn. by apply wp_list_destroy_loop. Qed.

(** Filtering. *)
Definition keeps (type : Z) (u : list relation) : bool :=
  match u with
  | [] => false
  | r :: _ => ((type =? TYPE_ACCESS) && osl_relation_is_access r) || (negb (type =? TYPE_ACCESS) && (type =? rtype r))
  end.
Lemma wp_filter_test e u type (Q : _ → oprop) :
  runion e u ∗ (runion e u -∗ Q (keeps type u)) ⊢ wp (filter_test e type) Q.
Proof.
  iIntros "[U K]". iDestruct (runion_isnull with "U") as "[%E U]". unfold filter_test. rewrite E.
  destruct u as [|r u]; cbn [keeps].
  - iApply wp_ret. by iApply "K".
  - cbn [runion]. iDestruct "U" as (m n) "(H & M & U)". iApply wp_bind. iApply wp_get_rel. iFrame "H". iIntros "H".
    iApply wp_ret. iApply "K". iExists m, n. iFrame.
Qed.
Lemma wp_filter_rest type l : ∀ p prev ep up filtered fuel (Q : _ → oprop), (List.length l < fuel)%nat →
  rlist p l ∗ prev ↦ CList ep p ∗ runion ep up ∗ (rlist prev (up :: List.filter (keeps type) l) -∗ Q filtered)
  ⊢ wp (list_filter_loop fuel type p false filtered prev) Q.
Proof.
  induction l as [|u l IH]; intros p prev ep up filtered [|fuel] Q Hf; try (cbn in Hf; lia);
    cbn [list_filter_loop rlist List.filter].
  - iIntros "(-> & P & E & K)". iApply wp_ret. iApply "K". iExists ep, NULL. by iFrame.
  - iIntros "((%e & %n & H & E & L) & P & EP & K)". iDestruct (isnull_false with "H") as "[%Ep H]". rewrite Ep.
    iApply wp_bind. iApply wp_get_list. iFrame "H". iIntros "H". iApply wp_bind. iApply (wp_filter_test e u). iFrame "E".
    iIntros "E". destruct (keeps type u).
    + iApply (IH n p e u); [cbn in Hf; lia|]. iFrame "L H E". iIntros "L". iApply "K". cbn [rlist]. iExists ep, p. iFrame.
    + iApply wp_bind. iApply wp_set_list_next. iFrame "P". iIntros "P".
      iApply wp_bind. iApply wp_set_list_next. iFrame "H". iIntros "H".
      iApply wp_bind. iApply (wp_list_free p [u]). iSplitL "H E"; [cbn [rlist]; iExists e, NULL; by iFrame|].
      iApply (IH n prev ep up); [cbn in Hf; lia|]. iFrame.
Qed.
Lemma wp_filter_first type l : ∀ p fuel (Q : _ → oprop), (List.length l < fuel)%nat →
  rlist p l ∗ (∀ q, rlist q (List.filter (keeps type) l) -∗ Q q)
  ⊢ wp (list_filter_loop fuel type p true NULL NULL) Q.
Proof.
  induction l as [|u l IH]; intros p [|fuel] Q Hf; try (cbn in Hf; lia); cbn [list_filter_loop rlist List.filter].
  - iIntros "(-> & K)". iApply wp_ret. by iApply "K".
  - iIntros "((%e & %n & H & E & L) & K)". iDestruct (isnull_false with "H") as "[%Ep H]". rewrite Ep.
    iApply wp_bind. iApply wp_get_list. iFrame "H". iIntros "H". iApply wp_bind. iApply (wp_filter_test e u). iFrame "E".
    iIntros "E". destruct (keeps type u).
    + iApply (wp_filter_rest type l n p e u p); [cbn in Hf; lia|]. iFrame "L H E". iIntros "L". by iApply "K".
    + iApply wp_bind. iApply wp_ret. iApply wp_bind. iApply wp_set_list_next. iFrame "H". iIntros "H".
      iApply wp_bind. iApply (wp_list_free p [u]). iSplitL "H E"; [cbn [rlist]; iExists e, NULL; by iFrame|].
      iApply IH; [cbn in Hf; lia|]. iFrame.
Qed.
Lemma wp_list_filter h p l l' type (Q : _ → oprop) : clone_list l = Ok l' →
  ex h (rlist p l) ∗ (∀ q, ex h (rlist p l) -∗ rlist q (List.filter (keeps type) l') -∗ Q q) ⊢ wp (osl_relation_list_filter_p p type) Q.
Proof.
  intros Hl. iIntros "[L K]". iApply wp_bind. iApply (wp_list_clone h p l l'); [done|]. iFrame "L". iIntros (c) "L C".
  iCombine "L K" as "K". iCombine "C K" as "K". iStopProof. apply (wp_loop_on (List.length l')); [apply rlist_size|].
  intros n Hn. iIntros "(C & L & K)". iApply (wp_filter_first type l'); [done|]. iFrame "C". iIntros (q) "C". iApply ("K" with "L C").
Qed.

Fixpoint count_present (l : list (list relation)) : Z :=
  match l with [] => 0 | u :: l' => match u with [] => count_present l' | _ => count_present l' + 1 end end.
Lemma wp_list_count_loop l : ∀ h p fuel (Q : _ → oprop), (List.length l < fuel)%nat →
  ex h (rlist p l) ∗ (ex h (rlist p l) -∗ Q (count_present l)) ⊢ wp (list_count_loop fuel p) Q.
Proof.
  induction l as [|u l IH]; intros h p [|fuel] Q Hf; try (cbn in Hf; lia); cbn [list_count_loop count_present].
  - iIntros "(L & K)". iDestruct (ex_rlist_isnull with "L") as "[%Ep L]". rewrite Ep. iApply wp_ret. by iApply "K".
  - iIntros "(L & K)". iDestruct (ex_rlist_cons with "L") as (e n h1 h2) "(H & E & L & %C)". iDestruct (isnull_false with "H") as "[%Ep H]". rewrite Ep.
    iApply wp_bind. iApply wp_get_list. iFrame "H". iIntros "H". iApply wp_bind. iApply IH; [cbn in Hf; lia|]. iFrame "L".
    iIntros "L". iApply wp_ret. iDestruct (ex_runion_isnull with "E") as "[%Ee E]". rewrite Ee.
    destruct u; (iApply "K"; iApply C; iFrame).
Qed.
Lemma wp_list_count h p l (Q : _ → oprop) :
  ex h (rlist p l) ∗ (ex h (rlist p l) -∗ Q (count_present l)) ⊢ wp (osl_relation_list_count_p p) Q.
Proof. apply (wp_loop_on (List.length l)); [apply ex_rlist_size|]. intros n Hn. by apply wp_list_count_loop. Qed.

(** Only the first part of each union gets the type. *)
Definition set_first_type (type : Z) (u : list relation) : list relation :=
  match u with [] => [] | r :: u' => with_type r type :: u' end.
Lemma wp_list_set_type_loop type l : ∀ p fuel (Q : _ → oprop), (List.length l < fuel)%nat →
  rlist p l ∗ (rlist p (map (set_first_type type) l) -∗ Q tt) ⊢ wp (list_set_type_loop fuel p type) Q.
Proof.
  induction l as [|u l IH]; intros p [|fuel] Q Hf; try (cbn in Hf; lia); cbn [list_set_type_loop rlist List.map].
  - iIntros "(-> & K)". iApply wp_ret. by iApply "K".
  - iIntros "((%e & %n & H & E & L) & K)". iDestruct (isnull_false with "H") as "[%Ep H]". rewrite Ep.
    iApply wp_bind. iApply wp_get_list. iFrame "H". iIntros "H". iApply wp_bind.
    iAssert (wp (set_elt_type e type)
               (λ _, runion e (set_first_type type u))) with "[E]" as "W".
    { unfold set_elt_type. iDestruct (runion_isnull with "E") as "[%Ee E]". rewrite Ee. destruct u as [|r u]; cbn [set_first_type runion].
      - by iApply wp_ret.
      - iDestruct "E" as (m n1) "(E & M & U)". iApply wp_bind. iApply wp_get_rel. iFrame "E". iIntros "E".
        iApply wp_store. iFrame "E". iIntros "E". iExists m, n1. iFrame. }
    iApply wp_wand. iFrame "W". iIntros (_) "E". iApply IH; [cbn in Hf; lia|]. iFrame "L". iIntros "L". iApply "K".
    iExists e, n. iFrame.
Qed.
Lemma wp_list_set_type p l type (Q : _ → oprop) :
  rlist p l ∗ (rlist p (map (set_first_type type) l) -∗ Q tt) ⊢ wp (osl_relation_list_set_type_p p type) Q.
Proof. apply (wp_loop_on (List.length l)); [apply rlist_size|]. intros n Hn. by apply wp_list_set_type_loop. Qed.
End R.
