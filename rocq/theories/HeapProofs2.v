(** * HeapProofs2: interfaces, extensions, statements, scops *)
From stdpp Require Import gmap.
From iris.proofmode Require Import tactics.
From Coq Require Import ZifyBool ZifyNat.
From Verif Require Import Base IntModel VectorModel RelationModel HeapModel HeapObjects HeapSpec HeapLogic HeapProofs.
Local Open Scope string_scope.
Local Open Scope list_scope.
Local Open Scope Z_scope.
Local Open Scope bi_scope.

(** ** Chains of nodes *)
Section CHAIN.
Context {A : Type} (node : ptr → A → ptr → oprop).
Class Node := { node_cell : ∀ p a n, node p a n ⊢ ∃ v (R : oprop), p ↦ v ∗ R }.
Fixpoint chain (p : ptr) (l : list A) : oprop :=
  match l with
  | [] => <affine> ⌜p = NULL⌝
  | a :: l' => ∃ n, node p a n ∗ chain n l'
  end.
Context {N : Node}.
Lemma node_nonnull p a n : node p a n ⊢ <affine> ⌜isnull p = false⌝ ∗ node p a n.
Proof.
  iIntros "H". iAssert ⌜p ≠ NULL⌝ as %Hp.
  { iDestruct (node_cell with "H") as (v R) "[H _]". by iDestruct (pointsto_not_null with "H") as %?. }
  iFrame. iPureIntro. by apply Z.eqb_neq.
Qed.
Lemma chain_isnull p l : chain p l ⊢ <affine> ⌜isnull p = match l with [] => true | _ => false end⌝ ∗ chain p l.
Proof.
  destruct l as [|a l]; cbn [chain].
  - iIntros "%E". by subst p.
  - iIntros "(%n & H & L)". iDestruct (node_nonnull with "H") as "[$ H]". iExists n. iFrame.
Qed.
Lemma chain_size p l : chain p l ⊢ size_ge (List.length l).
Proof.
  revert p. induction l as [|a l IH]; intros p; [apply size_ge_0|]. cbn [chain List.length].
  iIntros "(%n & H & L)". iApply (size_ge_sep (node p a n) _ 1 (List.length l)); [|apply IH|iFrame].
  iIntros "H". iDestruct (node_cell with "H") as (v R) "[H R]". iApply (size_ge_frame _ R). iFrame "R". by iApply size_ge_cell.
Qed.
Lemma ex_chain_isnull h p l :
  ex h (chain p l) ⊢ <affine> ⌜isnull p = match l with [] => true | _ => false end⌝ ∗ ex h (chain p l).
Proof. apply ex_pure. iIntros "H". by iDestruct (chain_isnull with "H") as "[% _]". Qed.
Lemma ex_chain_size h p l : ex h (chain p l) ⊢ size_ge (List.length l).
Proof. iIntros "H". iApply chain_size. by iApply ex_elim. Qed.
Lemma ex_chain_cons h p a l : ex h (chain p (a :: l)) ⊢ ∃ n h1 h2,
  ex h1 (node p a n) ∗ ex h2 (chain n l) ∗
  <affine> ⌜ex h1 (node p a n) ∗ ex h2 (chain n l) ⊢ ex h (chain p (a :: l))⌝.
Proof.
  cbn [chain]. iIntros "H". iDestruct (ex_exist_elim with "H") as (n) "H".
  iDestruct (ex_sep_elim with "H") as (h1 h2) "(H1 & H2 & -> & %D)". iExists n, h1, h2. iFrame. iPureIntro.
  iIntros "(H1 & H2)". iApply (ex_exist_intro _ _ n). iApply ex_sep_intro. iFrame.
Qed.
Lemma ex_chain_cons_in h p a l : ex h (chain p (a :: l)) ⊢ ∃ n h1 h2,
  ex h1 (node p a n) ∗ ex h2 (chain n l) ∗
  <affine> ⌜ex h1 (node p a n) ∗ ex h2 (chain n l) ⊢ ex h (chain p (a :: l))⌝ ∗
  <affine> ⌜node p a n h1 ∧ h1 ⊆ h ∧ h2 ⊆ h⌝.
Proof.
  cbn [chain]. iIntros "H". iDestruct (ex_exist_elim with "H") as (n) "H".
  iDestruct (ex_sep_elim with "H") as (h1 h2) "(H1 & H2 & -> & %D)". iDestruct (ex_self with "H1") as "[%E1 H1]".
  iExists n, h1, h2. iFrame. iPureIntro. split.
  - iIntros "(H1 & H2)". iApply (ex_exist_intro _ _ n). iApply ex_sep_intro. iFrame.
  - split; [done|]. split; [by apply map_union_subseteq_l|by apply map_union_subseteq_r].
Qed.
Lemma ex_node_nonnull h p a n : ex h (node p a n) ⊢ <affine> ⌜isnull p = false⌝ ∗ ex h (node p a n).
Proof. apply ex_pure. iIntros "H". by iDestruct (node_nonnull with "H") as "[% _]". Qed.
(** Up to a node. *)
Fixpoint cseg (p : ptr) (l : list A) (q : ptr) : oprop :=
  match l with
  | [] => <affine> ⌜p = q⌝
  | a :: l' => ∃ n, node p a n ∗ cseg n l' q
  end.
Lemma cseg_app l q v : ∀ p, cseg p l q ∗ chain q v ⊢ chain p (l ++ v).
Proof.
  induction l as [|a l IH]; intros p; cbn [cseg chain app].
  - by iIntros "[-> $]".
  - iIntros "[(%n & H & L) V]". iExists n. iFrame "H". iApply IH. iFrame.
Qed.
Lemma cseg_cut l v : ∀ p, chain p (l ++ v) ⊢ ∃ q, cseg p l q ∗ chain q v.
Proof.
  induction l as [|a l IH]; intros p; cbn [cseg chain app].
  - iIntros "V". iExists p. by iFrame.
  - iIntros "(%n & H & L)". iDestruct (IH with "L") as (q) "[L V]". iExists q. iFrame "V". iExists n. iFrame.
Qed.
Lemma cseg_size p l q : cseg p l q ⊢ size_ge (List.length l).
Proof.
  revert p. induction l as [|a l IH]; intros p; [apply size_ge_0|]. cbn [cseg List.length].
  iIntros "(%n & H & L)". iApply (size_ge_sep (node p a n) _ 1 (List.length l)); [|apply IH|iFrame].
  iIntros "H". iDestruct (node_cell with "H") as (v R) "[H R]". iApply (size_ge_frame _ R). iFrame "R". by iApply size_ge_cell.
Qed.
End CHAIN.
Arguments Node {A} node.

(** ** The nodes *)
Definition inode (p : ptr) (x : iface) (n : ptr) : oprop := p ↦ CIface (fst x) (snd x) n.
Definition ilist := chain inode.
Definition data_at (p : ptr) (d : option Z) : oprop :=
  match d with None => <affine> ⌜p = NULL⌝ | Some z => p ↦ CData z end.
Definition gnode (p : ptr) (g : gen) (n : ptr) : oprop :=
  ∃ d i, p ↦ CGen d i n ∗ data_at d (g_data g) ∗ ilist i (iface_list (g_iface g)).
Definition glist := chain gnode.
Definition snode (p : ptr) (s : stmt) (n : ptr) : oprop :=
  ∃ d sc a e, p ↦ CStmt d sc a e n ∗ runion d (st_domain s) ∗ runion sc (st_scattering s) ∗
    rlist a (st_access s) ∗ glist e (st_extension s).
Definition slist := chain snode.
Definition scnode (p : ptr) (s : scop) (n : ptr) : oprop :=
  ∃ c pa st r e, p ↦ CScop (sc_version s) (sc_language s) c pa st r e n ∗ runion c (sc_context s) ∗ glist pa (sc_parameters s) ∗
    slist st (sc_statement s) ∗ ilist r (sc_registry s) ∗ glist e (sc_extension s).
Definition sclist := chain scnode.
Global Instance inode_node : Node inode.
Proof. constructor. iIntros (p a n) "H". iExists _, emp. by iFrame. Qed.
Global Instance gnode_node : Node gnode.
Proof. constructor. iIntros (p a n) "(%d & %i & H & R)". iExists _, _. iFrame "H". iExact "R". Qed.
Global Instance snode_node : Node snode.
Proof. constructor. iIntros (p a n) "(%d & %sc & %ac & %e & H & R)". iExists _, _. iFrame "H". iExact "R". Qed.
Global Instance scnode_node : Node scnode.
Proof. constructor. iIntros (p a n) "(%c & %pa & %st & %r & %e & H & R)". iExists _, _. iFrame "H". iExact "R". Qed.
Global Instance inode_precise p x n : Precise (inode p x n).
Proof. apply _. Qed.
Global Instance data_at_precise p d : Precise (data_at p d).
Proof. destruct d; apply _. Qed.

(** ** Interfaces *)
Section I.
Context {cfg : config} {al : Allocator obj}.

Lemma wp_get_iface p x n (Q : _ → oprop) :
  inode p x n ∗ (inode p x n -∗ Q (fst x, snd x, n)) ⊢ wp (get_iface p) Q.
Proof. iIntros "[H K]". iApply wp_bind. iApply wp_load. iFrame. iIntros "H". iApply wp_ret. by iApply "K". Qed.
Lemma wp_get_iface_ex h p x n (Q : _ → oprop) :
  ex h (inode p x n) ∗ (ex h (inode p x n) -∗ Q (fst x, snd x, n)) ⊢ wp (get_iface p) Q.
Proof.
  iIntros "[H K]". iDestruct (ex_self with "H") as "[%E H]". iDestruct (ex_elim with "H") as "H".
  iApply wp_get_iface. iFrame "H". iIntros "H". iApply "K". by iApply (ex_precise_intro with "H").
Qed.
Lemma wp_set_iface_next p x n q (Q : _ → oprop) : inode p x n ∗ (inode p x q -∗ Q tt) ⊢ wp (set_iface_next p q) Q.
Proof. iIntros "[H K]". iApply wp_bind. iApply wp_get_iface. iFrame. iIntros "H". iApply wp_store. iFrame. Qed.

Definition iuri_is (u : str) (x : iface) : bool := match fst x with Some s => str_eqb s u | None => false end.
Definition ilookup (l : list iface) (u : str) : option iface := List.find (iuri_is u) l.
(** What the address [r] found in the memory [h] of a list means. *)
Definition ifound (h : heap obj) (r : ptr) (x : option iface) : Prop :=
  match x with None => r = NULL | Some x => r ≠ NULL ∧ ∃ n, h !! r = Some (CIface (fst x) (snd x) n) end.
Lemma ifound_isnull h r x : ifound h r x → isnull r = match x with None => true | _ => false end.
Proof. destruct x as [x|]; cbn; [intros [H _]; by apply Z.eqb_neq|by intros ->]. Qed.
Lemma ifound_mono h h' r x : h ⊆ h' → ifound h r x → ifound h' r x.
Proof. intros Hs. destruct x as [x|]; [|done]. intros (Hr & n & E). split; [done|]. exists n. by eapply lookup_weaken. Qed.

Lemma wp_interface_lookup_loop u l : ∀ h p fuel (Q : _ → oprop), (List.length l < fuel)%nat →
  ex h (ilist p l) ∗ (∀ r, <affine> ⌜ifound h r (ilookup l u)⌝ -∗ ex h (ilist p l) -∗ Q r)
  ⊢ wp (interface_lookup_loop fuel p u) Q.
Proof.
  induction l as [|x l IH]; intros h p [|fuel] Q Hf; try (cbn in Hf; lia); cbn [interface_lookup_loop].
  - iIntros "[L K]". iDestruct (ex_chain_isnull with "L") as "[%E L]". rewrite E. iApply wp_ret. by iApply ("K" with "[//] L").
  - iIntros "[L K]". iDestruct (ex_chain_cons_in with "L") as (n h1 h2) "(H & L & %C & %S)". destruct S as (S1 & S2 & S3).
    iDestruct (ex_node_nonnull with "H") as "[%E H]". rewrite E.
    iApply wp_bind. iApply wp_get_iface_ex. iFrame "H". iIntros "H". unfold ilookup. cbn [List.find].
    fold (iuri_is u x). destruct (iuri_is u x) eqn:Eu.
    + iApply wp_ret. iApply ("K" with "[]"); [|iApply C; iFrame]. iPureIntro. split; [by apply Z.eqb_neq|].
      exists n. destruct S1 as [S1 _]. rewrite S1 in S2. eapply lookup_weaken; [apply lookup_singleton|exact S2].
    + iApply (IH h2); [cbn in Hf; lia|]. iFrame "L". iIntros (r) "%Hr L". iApply ("K" with "[]"); [|iApply C; iFrame].
      iPureIntro. by eapply ifound_mono.
Qed.
Lemma wp_interface_lookup h p l u (Q : _ → oprop) :
  ex h (ilist p l) ∗ (∀ r, <affine> ⌜ifound h r (ilookup l u)⌝ -∗ ex h (ilist p l) -∗ Q r)
  ⊢ wp (osl_interface_lookup_p p (Some u)) Q.
Proof. apply (wp_loop_on (List.length l)); [apply ex_chain_size, _|]. intros k Hk. by apply wp_interface_lookup_loop. Qed.

(** May [x] be added to the list [l]? *)
Definition inew (l : list iface) (x : iface) : bool :=
  match fst x with Some u => match ilookup l u with None => true | _ => false end | None => false end.
Lemma wp_interface_check_loop h p l v : ∀ h' q fuel (Q : _ → oprop), (List.length v < fuel)%nat → forallb (inew l) v = true →
  ex h (ilist p l) ∗ ex h' (ilist q v) ∗ (ex h (ilist p l) -∗ ex h' (ilist q v) -∗ Q tt) ⊢ wp (interface_check_loop fuel p q) Q.
Proof.
  induction v as [|x v IH]; intros h' q [|fuel] Q Hf Hv; try (cbn in Hf; lia); cbn [interface_check_loop].
  - iIntros "(L & V & K)". iDestruct (ex_chain_isnull with "V") as "[%E V]". rewrite E. iApply wp_ret. by iApply ("K" with "L V").
  - cbn [forallb] in Hv. apply andb_true_iff in Hv as [Hx Hv].
    iIntros "(L & V & K)". iDestruct (ex_chain_cons with "V") as (n h1 h2) "(H & V & %C)".
    iDestruct (ex_node_nonnull with "H") as "[%E H]". rewrite E.
    iApply wp_bind. iApply wp_get_iface_ex. iFrame "H". iIntros "H". unfold inew in Hx. destruct (fst x) as [u|] eqn:Ex; [|done].
    iApply wp_bind. iApply (wp_interface_lookup h p l u). iFrame "L". iIntros (r) "%Hr L".
    apply ifound_isnull in Hr. destruct (ilookup l u); [done|]. rewrite Hr.
    iApply wp_bind. iApply wp_get_iface_ex. iFrame "H". iIntros "H".
    iApply (IH h2 n); [cbn in Hf; lia|done|]. iFrame "L V". iIntros "L V". iApply ("K" with "L"). iApply C. iFrame.
Qed.
Lemma wpe_interface_check_loop h p l v : ∀ h' q fuel, (List.length v < fuel)%nat → forallb (inew l) v = false →
  ex h (ilist p l) ∗ ex h' (ilist q v) ⊢ wpe (interface_check_loop fuel p q).
Proof.
  induction v as [|x v IH]; intros h' q [|fuel] Hf Hv; try (cbn in Hf; lia); cbn [interface_check_loop]; [done|].
  cbn [forallb] in Hv.
  iIntros "(L & V)". iDestruct (ex_chain_cons with "V") as (n h1 h2) "(H & V & %C)".
  iDestruct (ex_node_nonnull with "H") as "[%E H]". rewrite E.
  iApply wpe_bind. iApply wp_get_iface_ex. iFrame "H". iIntros "H". unfold inew in Hv at 1. destruct (fst x) as [u|] eqn:Ex.
  - iApply wpe_bind. iApply (wp_interface_lookup h p l u). iFrame "L". iIntros (r) "%Hr L".
    apply ifound_isnull in Hr. destruct (ilookup l u); rewrite Hr; [iStopProof; apply wpe_lift|]. cbn [andb] in Hv.
    iApply wpe_bind. iApply wp_get_iface_ex. iFrame "H". iIntros "H".
    iApply (wpe_frame _ (ex h1 (inode q x n))). iFrame "H". iApply (IH h2 n); [cbn in Hf; lia|done|]. iFrame.
  - iStopProof. apply wpe_lift.
Qed.
Lemma wp_interface_end_loop l : ∀ p x q v fuel (Q : _ → oprop), (List.length l < fuel)%nat →
  ilist p (x :: l) ∗ ilist q v ∗ (ilist p ((x :: l) ++ v) -∗ Q tt) ⊢ wp (interface_end_loop fuel p q) Q.
Proof.
  induction l as [|y l IH]; intros p x q v [|fuel] Q Hf; try (cbn in Hf; lia); cbn [interface_end_loop].
  - cbn [ilist chain app]. iIntros "((%n & H & ->) & V & K)". iApply wp_bind. iApply wp_get_iface. iFrame "H". iIntros "H".
    rewrite isnull_null. iApply wp_set_iface_next. iFrame "H". iIntros "H". iApply "K". iExists q. iFrame.
  - iIntros "((%n & H & L) & V & K)". iApply wp_bind. iApply wp_get_iface. iFrame "H". iIntros "H".
    iDestruct (chain_isnull inode n (y :: l) with "L") as "[%E L]". rewrite E.
    iApply (IH n y q v); [cbn in Hf; lia|]. iFrame "L V". iIntros "L". iApply "K". cbn [app]. iExists n. iFrame.
Qed.
Lemma wp_interface_add p l q v (Q : _ → oprop) : forallb (inew l) v = true →
  ilist p l ∗ ilist q v ∗ (ilist (if isnull p then q else p) (l ++ v) -∗ Q (if isnull p then q else p))
  ⊢ wp (osl_interface_add_p p q) Q.
Proof.
  intros Hv. iIntros "(L & V & K)". unfold osl_interface_add_p. iDestruct (chain_isnull with "V") as "[%E V]".
  iDestruct (chain_isnull with "L") as "[%Ep L]". rewrite E Ep. destruct v as [|x v].
  - iApply wp_ret. rewrite app_nil_r. cbn [chain]. iDestruct "V" as "->". destruct l; [|by iApply "K"].
    cbn [chain]. iDestruct "L" as "->". by iApply "K".
  - iDestruct (ex_intro with "L") as (hl) "L". iDestruct (ex_intro with "V") as (hv) "V". iApply wp_bind.
    iCombine "L K" as "K". iCombine "V K" as "K". iStopProof.
    apply (wp_loop_on (List.length (x :: v))); [apply ex_chain_size, _|]. intros k Hk. iIntros "(V & L & K)".
    iApply (wp_interface_check_loop hl p l (x :: v) hv); [done|done|]. iFrame "L V". iIntros "L V".
    iDestruct (ex_elim with "L") as "L". iDestruct (ex_elim with "V") as "V".
    destruct l as [|y l].
    + iApply wp_ret. iApply "K". cbn [chain app]. iDestruct "L" as "_". done.
    + iApply wp_bind. iCombine "V K" as "K". iCombine "L K" as "K". iStopProof.
      apply (wp_loop_on (List.length (y :: l))); [apply chain_size, _|]. intros k' Hk'. iIntros "(L & V & K)".
      iApply (wp_interface_end_loop l p y q (x :: v)); [cbn in Hk'; lia|]. iFrame "L V". iIntros "L". iApply wp_ret. by iApply "K".
Qed.
Lemma wpe_interface_add p l q v : forallb (inew l) v = false →
  ilist p l ∗ ilist q v ⊢ wpe (osl_interface_add_p p q).
Proof.
  intros Hv. iIntros "(L & V)". unfold osl_interface_add_p. iDestruct (chain_isnull with "V") as "[%E V]".
  destruct v as [|x v]; [done|]. rewrite E.
  iDestruct (ex_intro with "L") as (hl) "L". iDestruct (ex_intro with "V") as (hv) "V". iApply wpe_bind_l.
  iCombine "V L" as "K". iStopProof. apply (wpe_loop_on (List.length (x :: v))); [apply ex_chain_size, _|]. intros k Hk.
  iIntros "(V & L)". iApply (wpe_interface_check_loop hl p l (x :: v) hv); [done|done|]. iFrame.
Qed.

Lemma wp_interface_free_loop l : ∀ p fuel (Q : _ → oprop), (List.length l < fuel)%nat →
  ilist p l ∗ Q tt ⊢ wp (interface_free_loop fuel p) Q.
Proof.
  induction l as [|x l IH]; intros p [|fuel] Q Hf; try (cbn in Hf; lia); cbn [interface_free_loop].
  - cbn [ilist chain]. iIntros "[-> Q]". by iApply wp_ret.
  - iIntros "[(%n & H & L) Q]". iDestruct (node_nonnull inode with "H") as "[%E H]". rewrite E.
    iApply wp_bind. iApply wp_get_iface. iFrame "H". iIntros "H". iApply wp_bind. iApply wp_free. iFrame "H".
    iApply IH; [cbn in Hf; lia|]. iFrame.
Qed.
Lemma wp_interface_free p l (Q : _ → oprop) : ilist p l ∗ Q tt ⊢ wp (osl_interface_free_p p) Q.
Proof. apply (wp_loop_on (List.length l)); [apply chain_size, _|]. intros k Hk. by apply wp_interface_free_loop. Qed.
Lemma wp_interface_number_loop l : ∀ h p fuel (Q : _ → oprop), (List.length l < fuel)%nat →
  ex h (ilist p l) ∗ (ex h (ilist p l) -∗ Q (Z.of_nat (List.length l))) ⊢ wp (interface_number_loop fuel p) Q.
Proof.
  induction l as [|x l IH]; intros h p [|fuel] Q Hf; try (cbn in Hf; lia); cbn [interface_number_loop].
  - iIntros "[L K]". iDestruct (ex_chain_isnull with "L") as "[%E L]". rewrite E. iApply wp_ret. by iApply "K".
  - iIntros "[L K]". iDestruct (ex_chain_cons with "L") as (n h1 h2) "(H & L & %C)".
    iDestruct (ex_node_nonnull with "H") as "[%E H]". rewrite E.
    iApply wp_bind. iApply wp_get_iface_ex. iFrame "H". iIntros "H". iApply wp_bind. iApply (IH h2); [cbn in Hf; lia|].
    iFrame "L". iIntros "L". iApply wp_ret. cbn [List.length]. rewrite Nat2Z.inj_succ -Z.add_1_r. iApply "K". iApply C. iFrame.
Qed.
Lemma wp_interface_number h p l (Q : _ → oprop) :
  ex h (ilist p l) ∗ (ex h (ilist p l) -∗ Q (Z.of_nat (List.length l))) ⊢ wp (osl_interface_number_p p) Q.
Proof. apply (wp_loop_on (List.length l)); [apply ex_chain_size, _|]. intros k Hk. by apply wp_interface_number_loop. Qed.

(** Adding the elements one by one, as the copy does. *)
Fixpoint iclone (c l : list iface) : option (list iface) :=
  match l with [] => Some c | x :: l' => if inew c x then iclone (c ++ [x]) l' else None end.
Definition wanted {A} (n i : Z) (l : list A) : list A := if n =? -1 then l else firstn (Z.to_nat (n - i)) l.
Lemma wanted_cons {A} n i (x : A) l : 0 ≤ i →
  wanted n i (x :: l) = if (n =? -1) || (i <? n) then x :: wanted n (i + 1) l else [].
Proof.
  intros Hi. unfold wanted. destruct (Z.eqb_spec n (-1)); cbn [orb]; [done|].
  destruct (Z.ltb_spec i n).
  - replace (Z.to_nat (n - i)) with (S (Z.to_nat (n - (i + 1)))) by lia. done.
  - by replace (Z.to_nat (n - i)) with O by lia.
Qed.
Lemma wanted_nil {A} n i : wanted n i (@nil A) = [].
Proof. unfold wanted. destruct (n =? -1); [done|]. by rewrite firstn_nil. Qed.
Lemma wp_interface_nclone_loop n l : ∀ h p i c cl v fuel (Q : _ → oprop), (List.length l < fuel)%nat → 0 ≤ i →
  iclone c (wanted n i l) = Some v →
  ex h (ilist p l) ∗ ilist cl c ∗ (∀ q, ex h (ilist p l) -∗ ilist q v -∗ Q q) ⊢ wp (interface_nclone_loop fuel p n i cl) Q.
Proof.
  induction l as [|x l IH]; intros h p i c cl v [|fuel] Q Hf Hi Hv; try (cbn in Hf; lia); cbn [interface_nclone_loop].
  - rewrite wanted_nil in Hv. injection Hv as <-. iIntros "(L & C & K)". iDestruct (ex_chain_isnull with "L") as "[%E L]".
    rewrite E. cbn [negb andb]. iApply wp_ret. iApply ("K" with "L C").
  - rewrite wanted_cons in Hv; [|done]. iIntros "(L & C & K)". iDestruct (ex_chain_isnull with "L") as "[%E L]". rewrite E.
    cbn [negb andb]. destruct ((n =? -1) || (i <? n)).
    + cbn [iclone] in Hv. destruct (inew c x) eqn:Ex; [|done].
      iDestruct (ex_chain_cons with "L") as (m h1 h2) "(H & L & %C)".
      iApply wp_bind. iApply wp_get_iface_ex. iFrame "H". iIntros "H". iApply wp_bind. iApply wp_alloc. iIntros (nw) "N".
      iApply wp_bind. iApply (wp_interface_add cl c nw [x]); [cbn; by rewrite Ex|]. iFrame "C".
      iSplitL "N"; [cbn [ilist chain]; iExists NULL; by iFrame|]. iIntros "C".
      iApply wp_bind. iApply wp_get_iface_ex. iFrame "H". iIntros "H".
      iApply (IH h2 m (i + 1) (c ++ [x]) _ v); [cbn in Hf; lia|lia|done|]. iFrame "L C". iIntros (q) "L C".
      iApply ("K" with "[H L] C"). iApply C. iFrame.
    + injection Hv as <-. iApply wp_ret. iApply ("K" with "L C").
Qed.
Lemma wp_interface_nclone h p l n v (Q : _ → oprop) : iclone [] (wanted n 0 l) = Some v →
  ex h (ilist p l) ∗ (∀ q, ex h (ilist p l) -∗ ilist q v -∗ Q q) ⊢ wp (osl_interface_nclone_p p n) Q.
Proof.
  intros Hv. apply (wp_loop_on (List.length l)); [apply ex_chain_size, _|]. intros k Hk. iIntros "[L K]".
  iApply (wp_interface_nclone_loop n l h p 0 [] NULL v); [done|lia|done|]. iFrame. done.
Qed.
Lemma wpe_interface_nclone_loop n l : ∀ h p i c cl fuel, (List.length l < fuel)%nat → 0 ≤ i →
  iclone c (wanted n i l) = None →
  ex h (ilist p l) ∗ ilist cl c ⊢ wpe (interface_nclone_loop fuel p n i cl).
Proof.
  induction l as [|x l IH]; intros h p i c cl [|fuel] Hf Hi Hv; try (cbn in Hf; lia); cbn [interface_nclone_loop].
  - by rewrite wanted_nil in Hv.
  - rewrite wanted_cons in Hv; [|done]. iIntros "(L & C)". iDestruct (ex_chain_isnull with "L") as "[%E L]". rewrite E.
    cbn [negb andb]. destruct ((n =? -1) || (i <? n)); [|done]. cbn [iclone] in Hv.
    iDestruct (ex_chain_cons with "L") as (m h1 h2) "(H & L & %C)".
    iApply wpe_bind. iApply wp_get_iface_ex. iFrame "H". iIntros "H". iApply wpe_bind. iApply wp_alloc. iIntros (nw) "N".
    destruct (inew c x) eqn:Ex.
    + iApply wpe_bind. iApply (wp_interface_add cl c nw [x]); [cbn; by rewrite Ex|]. iFrame "C".
      iSplitL "N"; [cbn [ilist chain]; iExists NULL; by iFrame|]. iIntros "C".
      iApply wpe_bind. iApply wp_get_iface_ex. iFrame "H". iIntros "H".
      iApply (wpe_frame _ (ex h1 (inode p x m))). iFrame "H".
      iApply (IH h2 m (i + 1) (c ++ [x])); [cbn in Hf; lia|lia|done|]. iFrame.
    + iApply wpe_bind_l. iApply (wpe_frame _ (ex h1 (inode p x m) ∗ ex h2 (ilist m l))). iFrame "H L".
      iApply (wpe_interface_add cl c nw [x]); [cbn; by rewrite Ex|]. iFrame "C". cbn [ilist chain]. iExists NULL. by iFrame.
Qed.
Lemma wpe_interface_nclone h p l n : iclone [] (wanted n 0 l) = None → ex h (ilist p l) ⊢ wpe (osl_interface_nclone_p p n).
Proof.
  intros Hv. iIntros "L". iAssert (ex h (ilist p l) ∗ emp) with "[L]" as "L"; [by iFrame|]. iStopProof.
  apply (wpe_loop_on (List.length l)); [apply ex_chain_size, _|]. intros k Hk. iIntros "[L _]".
  iApply (wpe_interface_nclone_loop n l h p 0 [] NULL); [done|lia|done|]. iFrame. done.
Qed.
End I.

(** ** Extensions *)
Section G.
Context {cfg : config} {al : Allocator obj}.

Lemma wp_get_gen p d i n (Q : _ → oprop) : p ↦ CGen d i n ∗ (p ↦ CGen d i n -∗ Q (d, i, n)) ⊢ wp (get_gen p) Q.
Proof. iIntros "[H K]". iApply wp_bind. iApply wp_load. iFrame. iIntros "H". iApply wp_ret. by iApply "K". Qed.
Lemma wp_get_data p d (Q : _ → oprop) : p ↦ CData d ∗ (p ↦ CData d -∗ Q d) ⊢ wp (get_data p) Q.
Proof. iIntros "[H K]". iApply wp_bind. iApply wp_load. iFrame. iIntros "H". iApply wp_ret. by iApply "K". Qed.
Lemma wp_set_gen_next p d i n q (Q : _ → oprop) : p ↦ CGen d i n ∗ (p ↦ CGen d i q -∗ Q tt) ⊢ wp (set_gen_next p q) Q.
Proof. iIntros "[H K]". iApply wp_bind. iApply wp_get_gen. iFrame. iIntros "H". iApply wp_store. iFrame. Qed.
Lemma data_isnull p d : data_at p d ⊢ <affine> ⌜isnull p = match d with None => true | _ => false end⌝ ∗ data_at p d.
Proof. destruct d; cbn [data_at]; [apply isnull_false|]. iIntros "->". done. Qed.
Lemma ex_data_isnull h p d : ex h (data_at p d) ⊢ <affine> ⌜isnull p = match d with None => true | _ => false end⌝ ∗ ex h (data_at p d).
Proof. apply ex_pure. iIntros "H". by iDestruct (data_isnull with "H") as "[% _]". Qed.
Lemma ex_cell h p v : ex h (p ↦ v) ⊢ <affine> ⌜p ↦ v ⊢ ex h (p ↦ v)⌝ ∗ p ↦ v.
Proof.
  iIntros "H". iDestruct (ex_self with "H") as "[%E H]". iDestruct (ex_elim with "H") as "$". iPureIntro. apply ex_precise_intro; [apply _|done].
Qed.

(** What the address [r] found in the memory [h] means. *)
Definition dfound (h : heap obj) (r : ptr) (d : option Z) : Prop :=
  match d with None => r = NULL | Some z => r ≠ NULL ∧ h !! r = Some (CData z) end.
Lemma dfound_isnull h r d : dfound h r d → isnull r = match d with None => true | _ => false end.
Proof. destruct d; cbn; [intros [H _]; by apply Z.eqb_neq|by intros ->]. Qed.
Lemma dfound_mono h h' r d : h ⊆ h' → dfound h r d → dfound h' r d.
Proof. intros Hs. destruct d; [|done]. intros (Hr & E). split; [done|]. by eapply lookup_weaken. Qed.
Lemma data_dfound h p d : data_at p d h → dfound h p d.
Proof.
  destruct d; cbn [data_at dfound].
  - intros [-> Hp]. split; [done|]. apply lookup_singleton.
  - intros [_ H]. exact H.
Qed.

Lemma ex_gnode h p g n : ex h (gnode p g n) ⊢ ∃ d i hd hi,
  p ↦ CGen d i n ∗ ex hd (data_at d (g_data g)) ∗ ex hi (ilist i (iface_list (g_iface g))) ∗
  <affine> ⌜p ↦ CGen d i n ∗ ex hd (data_at d (g_data g)) ∗ ex hi (ilist i (iface_list (g_iface g))) ⊢ ex h (gnode p g n)⌝ ∗
  <affine> ⌜dfound h d (g_data g)⌝.
Proof.
  unfold gnode. iIntros "H". iDestruct (ex_exist_elim with "H") as (d) "H". iDestruct (ex_exist_elim with "H") as (i) "H".
  iDestruct (ex_sep_elim with "H") as (h1 h2) "(H1 & H2 & -> & %D1)".
  iDestruct (ex_sep_elim with "H2") as (hd hi) "(H2 & H3 & -> & %D2)".
  iDestruct (ex_cell with "H1") as "[%C H1]". iDestruct (ex_self with "H2") as "[%E2 H2]".
  iExists d, i, hd, hi. iFrame. iSplit; iPureIntro.
  - iIntros "(H1 & H2 & H3)". iApply (ex_exist_intro _ _ d). iApply (ex_exist_intro _ _ i). iApply ex_sep_intro.
    iSplitL "H1"; [by iApply C|]. iApply ex_sep_intro. iFrame.
  - eapply dfound_mono; [|by apply data_dfound]. etransitivity; [apply map_union_subseteq_l|by apply map_union_subseteq_r].
Qed.

Definition guri_is (u : str) (g : gen) : bool := match g_uri g with Some s => str_eqb s u | None => false end.
Definition glookup (l : list gen) (u : str) : option Z :=
  match List.find (guri_is u) l with Some g => g_data g | None => None end.

Lemma wp_generic_has_URI h p g n u (Q : _ → oprop) :
  ex h (gnode p g n) ∗ (ex h (gnode p g n) -∗ Q (guri_is u g)) ⊢ wp (osl_generic_has_URI_p p u) Q.
Proof.
  iIntros "[H K]". unfold osl_generic_has_URI_p. iDestruct (ex_node_nonnull with "H") as "[%E H]". rewrite E.
  iDestruct (ex_gnode with "H") as (d i hd hi) "(H & D & I & %C & _)".
  iApply wp_bind. iApply wp_get_gen. iFrame "H". iIntros "H". iDestruct (ex_chain_isnull with "I") as "[%Ei I]". rewrite Ei.
  unfold guri_is, g_uri. destruct (g_iface g) as [[uu o]|]; cbn [iface_list].
  - iDestruct (ex_chain_cons with "I") as (m h1 h2) "(I & J & %C')".
    iApply wp_bind. iApply wp_get_iface_ex. iFrame "I". iIntros "I". cbn [fst snd]. iApply wp_ret.
    iAssert (ex h (gnode p g n)) with "[-K]" as "G".
    { iApply C. iFrame "H D". iApply C'. iFrame. }
    destruct uu; iApply ("K" with "G").
  - iApply wp_ret. iApply "K". iApply C. iFrame.
Qed.
Lemma wp_get_gen_ex h p g n (Q : _ → oprop) :
  ex h (gnode p g n) ∗ (∀ d i, <affine> ⌜dfound h d (g_data g)⌝ -∗ ex h (gnode p g n) -∗ Q (d, i, n)) ⊢ wp (get_gen p) Q.
Proof.
  iIntros "[H K]". iDestruct (ex_gnode with "H") as (d i hd hi) "(H & D & I & %C & %F)".
  iApply wp_get_gen. iFrame "H". iIntros "H". iApply ("K" with "[//]"). iApply C. iFrame.
Qed.
Lemma wp_generic_lookup_loop u l : ∀ h p fuel (Q : _ → oprop), (List.length l < fuel)%nat →
  ex h (glist p l) ∗ (∀ r, <affine> ⌜dfound h r (glookup l u)⌝ -∗ ex h (glist p l) -∗ Q r)
  ⊢ wp (generic_lookup_loop fuel p u) Q.
Proof.
  induction l as [|g l IH]; intros h p [|fuel] Q Hf; try (cbn in Hf; lia); cbn [generic_lookup_loop].
  - iIntros "[L K]". iDestruct (ex_chain_isnull with "L") as "[%E L]". rewrite E. iApply wp_ret. by iApply ("K" with "[//] L").
  - iIntros "[L K]". iDestruct (ex_chain_cons_in with "L") as (n h1 h2) "(H & L & %C & %S)". destruct S as (S1 & S2 & S3).
    iDestruct (ex_node_nonnull with "H") as "[%E H]". rewrite E.
    iApply wp_bind. iApply wp_generic_has_URI. iFrame "H". iIntros "H".
    iApply wp_bind. iApply wp_get_gen_ex. iFrame "H". iIntros (d i) "%F H".
    unfold glookup. cbn [List.find]. destruct (guri_is u g) eqn:Eu.
    + iApply wp_ret. iApply ("K" with "[]"); [|iApply C; iFrame]. iPureIntro. exact (dfound_mono _ _ _ _ S2 F).
    + iApply (IH h2); [cbn in Hf; lia|]. iFrame "L". iIntros (r) "%Hr L". iApply ("K" with "[]"); [|iApply C; iFrame].
      iPureIntro. exact (dfound_mono _ _ _ _ S3 Hr).
Qed.
Lemma wp_generic_lookup h p l u (Q : _ → oprop) :
  ex h (glist p l) ∗ (∀ r, <affine> ⌜dfound h r (glookup l u)⌝ -∗ ex h (glist p l) -∗ Q r)
  ⊢ wp (osl_generic_lookup_p p u) Q.
Proof. apply (wp_loop_on (List.length l)); [apply ex_chain_size, _|]. intros k Hk. by apply wp_generic_lookup_loop. Qed.

(** May [g] be added to the list [l]? *)
Definition gnew (l : list gen) (g : gen) : bool :=
  match g_uri g with Some u => match glookup l u with None => true | _ => false end | None => false end.
Lemma wp_generic_check_loop h p l v : ∀ h' q fuel (Q : _ → oprop), (List.length v < fuel)%nat → forallb (gnew l) v = true →
  ex h (glist p l) ∗ ex h' (glist q v) ∗ (ex h (glist p l) -∗ ex h' (glist q v) -∗ Q tt) ⊢ wp (generic_check_loop fuel p q) Q.
Proof.
  induction v as [|g v IH]; intros h' q [|fuel] Q Hf Hv; try (cbn in Hf; lia); cbn [generic_check_loop].
  - iIntros "(L & V & K)". iDestruct (ex_chain_isnull with "V") as "[%E V]". rewrite E. iApply wp_ret. by iApply ("K" with "L V").
  - cbn [forallb] in Hv. apply andb_true_iff in Hv as [Hx Hv].
    iIntros "(L & V & K)". iDestruct (ex_chain_cons with "V") as (n h1 h2) "(H & V & %C)".
    iDestruct (ex_node_nonnull with "H") as "[%E H]". rewrite E.
    iDestruct (ex_gnode with "H") as (d i hd hi) "(H & D & I & %C' & _)".
    iApply wp_bind. iApply wp_get_gen. iFrame "H". iIntros "H". iDestruct (ex_chain_isnull with "I") as "[%Ei I]". rewrite Ei.
    unfold gnew, g_uri in Hx. destruct (g_iface g) as [[uu o]|]; cbn [iface_list]; [|done]. destruct uu as [u|]; [|done].
    iDestruct (ex_chain_cons with "I") as (m h3 h4) "(I & J & %C'')".
    iApply wp_bind. iApply wp_get_iface_ex. iFrame "I". iIntros "I". cbn [fst snd].
    iApply wp_bind. iApply (wp_generic_lookup h p l u). iFrame "L". iIntros (r) "%Hr L".
    apply dfound_isnull in Hr. destruct (glookup l u); [done|]. rewrite Hr.
    iApply (IH h2 n); [cbn in Hf; lia|done|]. iFrame "L V". iIntros "L V". iApply ("K" with "L"). iApply C. iFrame "V".
    iApply C'. iFrame "H D". iApply C''. iFrame.
Qed.
Lemma wpe_generic_check_loop h p l v : ∀ h' q fuel, (List.length v < fuel)%nat → forallb (gnew l) v = false →
  ex h (glist p l) ∗ ex h' (glist q v) ⊢ wpe (generic_check_loop fuel p q).
Proof.
  induction v as [|g v IH]; intros h' q [|fuel] Hf Hv; try (cbn in Hf; lia); cbn [generic_check_loop]; [done|].
  cbn [forallb] in Hv.
  iIntros "(L & V)". iDestruct (ex_chain_cons with "V") as (n h1 h2) "(H & V & %C)".
  iDestruct (ex_node_nonnull with "H") as "[%E H]". rewrite E.
  iDestruct (ex_gnode with "H") as (d i hd hi) "(H & D & I & %C' & _)".
  iApply wpe_bind. iApply wp_get_gen. iFrame "H". iIntros "H". iDestruct (ex_chain_isnull with "I") as "[%Ei I]". rewrite Ei.
  unfold gnew at 1, g_uri in Hv. destruct (g_iface g) as [[uu o]|]; cbn [iface_list]; [|iStopProof; apply wpe_lift].
  iDestruct (ex_chain_cons with "I") as (m h3 h4) "(I & J & %C'')".
  iApply wpe_bind. iApply wp_get_iface_ex. iFrame "I". iIntros "I". cbn [fst snd].
  destruct uu as [u|]; [|iStopProof; apply wpe_lift].
  iApply wpe_bind. iApply (wp_generic_lookup h p l u). iFrame "L". iIntros (r) "%Hr L".
  apply dfound_isnull in Hr. destruct (glookup l u); rewrite Hr; [iStopProof; apply wpe_lift|]. cbn [andb] in Hv.
  iCombine "H D I J" as "R". iApply wpe_frame. iSplitR "R"; [|iExact "R"]. iApply (IH h2 n); [cbn in Hf; lia|done|]. iFrame.
Qed.
Lemma wp_generic_end_loop l : ∀ p x q v fuel (Q : _ → oprop), (List.length l < fuel)%nat →
  glist p (x :: l) ∗ glist q v ∗ (glist p ((x :: l) ++ v) -∗ Q tt) ⊢ wp (generic_end_loop fuel p q) Q.
Proof.
  induction l as [|y l IH]; intros p x q v [|fuel] Q Hf; try (cbn in Hf; lia); cbn [generic_end_loop].
  - cbn [glist chain app]. iIntros "((%n & (%d & %i & H & D & I) & ->) & V & K)". iApply wp_bind. iApply wp_get_gen. iFrame "H". iIntros "H".
    rewrite isnull_null. iApply wp_set_gen_next. iFrame "H". iIntros "H". iApply "K". iExists q. iFrame "V". iExists d, i. iFrame.
  - iIntros "((%n & (%d & %i & H & D & I) & L) & V & K)". iApply wp_bind. iApply wp_get_gen. iFrame "H". iIntros "H".
    iDestruct (chain_isnull gnode n (y :: l) with "L") as "[%E L]". rewrite E.
    iApply (IH n y q v); [cbn in Hf; lia|]. iFrame "L V". iIntros "L". iApply "K". cbn [app]. iExists n. iFrame "L". iExists d, i. iFrame.
Qed.
Lemma wp_generic_add p l q v (Q : _ → oprop) : forallb (gnew l) v = true →
  glist p l ∗ glist q v ∗ (glist (if isnull p then q else p) (l ++ v) -∗ Q (if isnull p then q else p))
  ⊢ wp (osl_generic_add_p p q) Q.
Proof.
  intros Hv. iIntros "(L & V & K)". unfold osl_generic_add_p. iDestruct (chain_isnull with "V") as "[%E V]".
  iDestruct (chain_isnull with "L") as "[%Ep L]". rewrite E Ep. destruct v as [|x v].
  - iApply wp_ret. rewrite app_nil_r. cbn [chain]. iDestruct "V" as "->". destruct l; [|by iApply "K"].
    cbn [chain]. iDestruct "L" as "->". by iApply "K".
  - iDestruct (ex_intro with "L") as (hl) "L". iDestruct (ex_intro with "V") as (hv) "V". iApply wp_bind.
    iCombine "L K" as "K". iCombine "V K" as "K". iStopProof.
    apply (wp_loop_on (List.length (x :: v))); [apply ex_chain_size, _|]. intros k Hk. iIntros "(V & L & K)".
    iApply (wp_generic_check_loop hl p l (x :: v) hv); [done|done|]. iFrame "L V". iIntros "L V".
    iDestruct (ex_elim with "L") as "L". iDestruct (ex_elim with "V") as "V".
    destruct l as [|y l].
    + iApply wp_ret. iApply "K". cbn [chain app]. iDestruct "L" as "_". done.
    + iApply wp_bind. iCombine "V K" as "K". iCombine "L K" as "K". iStopProof.
      apply (wp_loop_on (List.length (y :: l))); [apply chain_size, _|]. intros k' Hk'. iIntros "(L & V & K)".
      iApply (wp_generic_end_loop l p y q (x :: v)); [cbn in Hk'; lia|]. iFrame "L V". iIntros "L". iApply wp_ret. by iApply "K".
Qed.
Lemma wpe_generic_add p l q v : forallb (gnew l) v = false →
  glist p l ∗ glist q v ⊢ wpe (osl_generic_add_p p q).
Proof.
  intros Hv. iIntros "(L & V)". unfold osl_generic_add_p. iDestruct (chain_isnull with "V") as "[%E V]".
  destruct v as [|x v]; [done|]. rewrite E.
  iDestruct (ex_intro with "L") as (hl) "L". iDestruct (ex_intro with "V") as (hv) "V". iApply wpe_bind_l.
  iCombine "V L" as "K". iStopProof. apply (wpe_loop_on (List.length (x :: v))); [apply ex_chain_size, _|]. intros k Hk.
  iIntros "(V & L)". iApply (wpe_generic_check_loop hl p l (x :: v) hv); [done|done|]. iFrame.
Qed.

Lemma wp_free_data p d (Q : _ → oprop) : data_at p d ∗ Q tt ⊢ wp (free p) Q.
Proof. destruct d; cbn [data_at]; [apply wp_free|]. iIntros "[-> Q]". by iApply wp_free_null. Qed.
Lemma wp_generic_free_loop l : ∀ p fuel (Q : _ → oprop), (List.length l < fuel)%nat →
  glist p l ∗ Q tt ⊢ wp (generic_free_loop fuel p) Q.
Proof.
  induction l as [|x l IH]; intros p [|fuel] Q Hf; try (cbn in Hf; lia); cbn [generic_free_loop].
  - cbn [glist chain]. iIntros "[-> Q]". by iApply wp_ret.
  - iIntros "[(%n & H & L) Q]". iDestruct (node_nonnull gnode with "H") as "[%E H]". rewrite E.
    iDestruct "H" as (d i) "(H & D & I)". iApply wp_bind. iApply wp_get_gen. iFrame "H". iIntros "H".
    iDestruct (chain_isnull with "I") as "[%Ei I]". rewrite Ei. iDestruct (data_isnull with "D") as "[%Ed D]".
    iApply wp_bind. destruct (g_iface x) as [y|]; cbn [iface_list negb].
    + iDestruct "I" as (m) "[I J]". iApply wp_bind. iApply wp_bind. iApply wp_get_iface. iFrame "I". iIntros "I".
      iApply wp_free_data. iFrame "D". iApply (wp_interface_free i [y]). iSplitL "I J"; [cbn [chain]; iExists m; iFrame|].
      iApply wp_bind. iApply wp_free. iFrame "H". iApply IH; [cbn in Hf; lia|]. iFrame.
    + cbn [chain]. iDestruct "I" as "->". rewrite Ed. destruct (g_data x) as [z|]; cbn [negb].
      * iApply wp_free_data. iFrame "D". iApply wp_bind. iApply wp_free. iFrame "H". iApply IH; [cbn in Hf; lia|]. iFrame.
      * cbn [data_at]. iDestruct "D" as "->". iApply wp_ret. iApply wp_bind. iApply wp_free. iFrame "H". iApply IH; [cbn in Hf; lia|]. iFrame.
Qed.
Lemma wp_generic_free p l (Q : _ → oprop) : glist p l ∗ Q tt ⊢ wp (osl_generic_free_p p) Q.
Proof. apply (wp_loop_on (List.length l)); [apply chain_size, _|]. intros k Hk. by apply wp_generic_free_loop. Qed.
End G.
