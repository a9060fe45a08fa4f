(** * HeapProofs6: the comparison functions *)
From stdpp Require Import gmap.
From iris.proofmode Require Import tactics.
From Coq Require Import ZifyBool ZifyNat.
From Verif Require Import Base IntModel VectorModel RelationModel RelSpec RelationProofs2 HeapModel HeapObjects HeapEqual HeapSpec HeapLogic
  HeapProofs HeapProofs2 HeapProofs3 HeapProofs4 HeapProofs5.
Local Open Scope string_scope.
Local Open Scope list_scope.
Local Open Scope Z_scope.
Local Open Scope bi_scope.

Section E.
Context {cfg : config} {al : Allocator obj}.

Lemma wp_part_equal p1 p2 r1 r2 m1 m2 n1 n2 (Q : bool → oprop) : wf_rel cfg r1 → wf_rel cfg r2 →
  p1 ↦ CRel (header r1) m1 n1 ∗ mat_at m1 r1 ∗ p2 ↦ CRel (header r2) m2 n2 ∗ mat_at m2 r2 ∗
  (∀ b, <affine> ⌜b = true ↔ r1 = r2⌝ -∗ p1 ↦ CRel (header r1) m1 n1 -∗ mat_at m1 r1 -∗
        p2 ↦ CRel (header r2) m2 n2 -∗ mat_at m2 r2 -∗ Q b)
  ⊢ wp (osl_relation_part_equal_p p1 p2) Q.
Proof.
  intros W1 W2. destruct (part_equal_ok (cfg:=cfg) r1 r2 W1 W2) as (b & E & Hb).
  iIntros "(H1 & M1 & H2 & M2 & K)". unfold osl_relation_part_equal_p.
  iDestruct (cell_neq with "[$H1 $H2]") as "(%Ne & H1 & H2)". rewrite Ne.
  iDestruct (isnull_false with "H1") as "[%E1 H1]". iDestruct (isnull_false with "H2") as "[%E2 H2]". rewrite E1 E2. cbn [andb orb negb].
  iApply wp_bind. iApply wp_read_part. iFrame "H1 M1". iIntros "H1 M1".
  iApply wp_bind. iApply wp_read_part. iFrame "H2 M2". iIntros "H2 M2".
  iApply wp_lift; [exact E|]. by iApply ("K" with "[//] H1 M1 H2 M2").
Qed.
Lemma wp_relation_equal_loop u1 : ∀ u2 h1 h2 p1 p2 fuel (Q : bool → oprop), (List.length u1 < fuel)%nat →
  wf_union cfg u1 → wf_union cfg u2 →
  ex h1 (runion p1 u1) ∗ ex h2 (runion p2 u2) ∗
  (∀ b, <affine> ⌜b = true ↔ u1 = u2⌝ -∗ ex h1 (runion p1 u1) -∗ ex h2 (runion p2 u2) -∗ Q b)
  ⊢ wp (relation_equal_loop fuel p1 p2) Q.
Proof.
  induction u1 as [|r1 u1 IH]; intros u2 h1 h2 p1 p2 [|fuel] Q Hf W1 W2; try (cbn in Hf; lia); cbn [relation_equal_loop].
  - iIntros "(L1 & L2 & K)". iDestruct (ex_runion_isnull with "L1") as "[%E1 L1]". iDestruct (ex_runion_isnull with "L2") as "[%E2 L2]".
    rewrite E1 E2. destruct u2; cbn [andb orb negb]; iApply wp_ret; iApply ("K" with "[] L1 L2"); iPureIntro; [done|split; done].
  - iIntros "(L1 & L2 & K)". iDestruct (ex_runion_isnull with "L1") as "[%E1 L1]". iDestruct (ex_runion_isnull with "L2") as "[%E2 L2]".
    rewrite E1 E2. destruct u2 as [|r2 u2]; cbn [andb orb negb].
    { iApply wp_ret. iApply ("K" with "[] L1 L2"). iPureIntro. split; done. }
    apply Forall_cons_1 in W1 as [W1 V1]. apply Forall_cons_1 in W2 as [W2 V2].
    iDestruct (ex_runion_cons with "L1") as (m1 n1 h1') "(H1 & M1 & L1 & %C1)".
    iDestruct (ex_runion_cons with "L2") as (m2 n2 h2') "(H2 & M2 & L2 & %C2)".
    iApply wp_bind. iApply (wp_part_equal p1 p2 r1 r2); [done|done|]. iFrame "H1 M1 H2 M2". iIntros (b) "%Hb H1 M1 H2 M2".
    destruct b.
    + iApply wp_bind. iApply wp_get_rel. iFrame "H1". iIntros "H1". iApply wp_bind. iApply wp_get_rel. iFrame "H2". iIntros "H2".
      iApply (IH u2 h1' h2'); [cbn in Hf; lia|done|done|]. iFrame "L1 L2". iIntros (b) "%Hb' L1 L2".
      iApply ("K" with "[] [H1 M1 L1]"); [|iApply C1; iFrame|iApply C2; iFrame]. iPureIntro. rewrite Hb'.
      assert (r1 = r2) by tauto. subst. split; congruence.
    + iApply wp_ret. iApply ("K" with "[] [H1 M1 L1]"); [|iApply C1; iFrame|iApply C2; iFrame]. iPureIntro. split; [done|].
      intros [= Hr _]. tauto.
Qed.
Lemma wp_relation_equal u1 u2 h1 h2 p1 p2 (Q : bool → oprop) : wf_union cfg u1 → wf_union cfg u2 →
  ex h1 (runion p1 u1) ∗ ex h2 (runion p2 u2) ∗
  (∀ b, <affine> ⌜b = true ↔ u1 = u2⌝ -∗ ex h1 (runion p1 u1) -∗ ex h2 (runion p2 u2) -∗ Q b)
  ⊢ wp (osl_relation_equal_p p1 p2) Q.
Proof.
  intros W1 W2. apply (wp_loop_on (List.length u1)); [apply ex_runion_size|]. intros k Hk. by apply wp_relation_equal_loop.
Qed.

Lemma ex_rlist_isnull h p l :
  ex h (rlist p l) ⊢ <affine> ⌜isnull p = match l with [] => true | _ => false end⌝ ∗ ex h (rlist p l).
Proof.
  apply ex_pure. destruct l; cbn [rlist].
  - iIntros "%E". subst. done.
  - iIntros "(%e & %n & H & _ & _)". iDestruct (isnull_false with "H") as "[% _]". done.
Qed.
Lemma wp_list_equal_loop l1 : ∀ l2 h1 h2 p1 p2 fuel (Q : bool → oprop), (List.length l1 < fuel)%nat →
  Forall (wf_union cfg) l1 → Forall (wf_union cfg) l2 →
  ex h1 (rlist p1 l1) ∗ ex h2 (rlist p2 l2) ∗
  (∀ b, <affine> ⌜b = true ↔ l1 = l2⌝ -∗ ex h1 (rlist p1 l1) -∗ ex h2 (rlist p2 l2) -∗ Q b)
  ⊢ wp (list_equal_loop fuel p1 p2) Q.
Proof.
  induction l1 as [|u1 l1 IH]; intros l2 h1 h2 p1 p2 [|fuel] Q Hf W1 W2; try (cbn in Hf; lia); cbn [list_equal_loop].
  - iIntros "(L1 & L2 & K)". iDestruct (ex_rlist_isnull with "L1") as "[%E1 L1]". iDestruct (ex_rlist_isnull with "L2") as "[%E2 L2]".
    rewrite E1 E2. destruct l2; cbn [andb orb negb]; iApply wp_ret; iApply ("K" with "[] L1 L2"); iPureIntro; [done|split; done].
  - iIntros "(L1 & L2 & K)". iDestruct (ex_rlist_isnull with "L1") as "[%E1 L1]". iDestruct (ex_rlist_isnull with "L2") as "[%E2 L2]".
    rewrite E1 E2. destruct l2 as [|u2 l2]; cbn [andb orb negb].
    { iApply wp_ret. iApply ("K" with "[] L1 L2"). iPureIntro. split; done. }
    apply Forall_cons_1 in W1 as [W1 V1]. apply Forall_cons_1 in W2 as [W2 V2].
    iDestruct (ex_rlist_cons with "L1") as (m1 n1 h1' h1'') "(H1 & M1 & L1 & %C1)".
    iDestruct (ex_rlist_cons with "L2") as (m2 n2 h2' h2'') "(H2 & M2 & L2 & %C2)".
    iDestruct (cell_neq with "[$H1 $H2]") as "(%Ne & H1 & H2)". rewrite Ne.
    iApply wp_bind. iApply wp_get_list. iFrame "H1". iIntros "H1". iApply wp_bind. iApply wp_get_list. iFrame "H2". iIntros "H2".
    iApply wp_bind. iApply (wp_relation_equal u1 u2 h1' h2'); [done|done|]. iFrame "M1 M2". iIntros (b) "%Hb M1 M2".
    destruct b.
    + iApply (IH l2 h1'' h2''); [cbn in Hf; lia|done|done|]. iFrame "L1 L2". iIntros (b) "%Hb' L1 L2".
      iApply ("K" with "[] [H1 M1 L1]"); [|iApply C1; iFrame|iApply C2; iFrame]. iPureIntro. rewrite Hb'.
      assert (u1 = u2) by tauto. subst. split; congruence.
    + iApply wp_ret. iApply ("K" with "[] [H1 M1 L1]"); [|iApply C1; iFrame|iApply C2; iFrame]. iPureIntro. split; [done|].
      intros [= Hr _]. tauto.
Qed.
Lemma wp_list_equal l1 l2 h1 h2 p1 p2 (Q : bool → oprop) : Forall (wf_union cfg) l1 → Forall (wf_union cfg) l2 →
  ex h1 (rlist p1 l1) ∗ ex h2 (rlist p2 l2) ∗
  (∀ b, <affine> ⌜b = true ↔ l1 = l2⌝ -∗ ex h1 (rlist p1 l1) -∗ ex h2 (rlist p2 l2) -∗ Q b)
  ⊢ wp (osl_relation_list_equal_p p1 p2) Q.
Proof.
  intros W1 W2. apply (wp_loop_on (List.length l1)).
  - iIntros "H". iApply rlist_size. by iApply ex_elim.
  - intros k Hk. by apply wp_list_equal_loop.
Qed.

(** ** Extensions *)
Definition opt_Z_eqb (a b : option Z) : bool :=
  match a, b with None, None => true | Some x, Some y => Z.eqb x y | _, _ => false end.
Lemma opt_Z_eqb_iff a b : opt_Z_eqb a b = true ↔ a = b.
Proof. destruct a, b; cbn; rewrite ?Z.eqb_eq; split; congruence. Qed.
Lemma wp_data_equal h1 h2 hi i x n d1 d2 z1 z2 (Q : bool → oprop) :
  ex hi (inode i x n) ∗ ex h1 (data_at d1 z1) ∗ ex h2 (data_at d2 z2) ∗
  (ex hi (inode i x n) -∗ ex h1 (data_at d1 z1) -∗ ex h2 (data_at d2 z2) -∗ Q (opt_Z_eqb z1 z2))
  ⊢ wp (data_equal i d1 d2) Q.
Proof.
  iIntros "(I & D1 & D2 & K)". iApply wp_bind. iApply wp_get_iface_ex. iFrame "I". iIntros "I".
  iDestruct (ex_data_isnull with "D1") as "[%E1 D1]". iDestruct (ex_data_isnull with "D2") as "[%E2 D2]".
  destruct z1 as [z1|], z2 as [z2|]; cbn [data_at].
  - iDestruct (ex_cell with "D1") as "[%C1 D1]". iDestruct (ex_cell with "D2") as "[%C2 D2]".
    iDestruct (cell_neq with "[$D1 $D2]") as "(%Ne & D1 & D2)". rewrite Ne E1 E2. cbn [orb].
    iApply wp_bind. iApply wp_get_data. iFrame "D1". iIntros "D1". iApply wp_bind. iApply wp_get_data. iFrame "D2". iIntros "D2".
    iApply wp_ret. iApply ("K" with "I [D1]"); [by iApply C1|by iApply C2].
  - destruct (Z.eqb_spec d1 d2) as [->|]; [by rewrite E1 in E2|]. rewrite E1 E2. cbn [orb]. iApply wp_ret. iApply ("K" with "I D1 D2").
  - destruct (Z.eqb_spec d1 d2) as [->|]; [by rewrite E1 in E2|]. rewrite E1 E2. cbn [orb]. iApply wp_ret. iApply ("K" with "I D1 D2").
  - assert (d1 = d2) as ->. { unfold isnull in *. lia. } rewrite Z.eqb_refl. iApply wp_ret. iApply ("K" with "I D1 D2").
Qed.
(** Same interface, as osl_interface_equal sees it. *)
Definition iface_eqb (a b : option iface) : bool :=
  match a, b with
  | None, None => true
  | Some (Some u1, o1), Some (Some u2, o2) => str_eqb u1 u2 && Z.eqb o1 o2
  | _, _ => false
  end.
Definition has_uri (i : option iface) : Prop := match i with Some (None, _) => False | _ => True end.
Lemma ilist_head i l : ilist i l ⊢ <affine> ⌜isnull i = match head l with None => true | _ => false end⌝ ∗ ilist i l.
Proof. iIntros "H". iDestruct (chain_isnull with "H") as "[%E H]". iFrame. iPureIntro. rewrite E. by destruct l. Qed.
Lemma wp_interface_equal h1 h2 p1 p2 l1 l2 (Q : bool → oprop) : has_uri (head l1) → has_uri (head l2) →
  ex h1 (ilist p1 l1) ∗ ex h2 (ilist p2 l2) ∗
  (ex h1 (ilist p1 l1) -∗ ex h2 (ilist p2 l2) -∗ Q (iface_eqb (head l1) (head l2)))
  ⊢ wp (osl_interface_equal_p p1 p2) Q.
Proof.
  intros U1 U2. iIntros "(L1 & L2 & K)". unfold osl_interface_equal_p.
  iDestruct (ex_chain_isnull with "L1") as "[%E1 L1]". iDestruct (ex_chain_isnull with "L2") as "[%E2 L2]".
  destruct l1 as [|[u1 o1] l1], l2 as [|[u2 o2] l2].
  - assert (p1 = p2) as ->. { unfold isnull in *. lia. } rewrite Z.eqb_refl. iApply wp_ret. iApply ("K" with "L1 L2").
  - destruct (Z.eqb_spec p1 p2) as [->|]; [by rewrite E1 in E2|]. rewrite E1 E2. cbn [orb]. iApply wp_ret. iApply ("K" with "L1 L2").
  - destruct (Z.eqb_spec p1 p2) as [->|]; [by rewrite E1 in E2|]. rewrite E1 E2. cbn [orb]. iApply wp_ret.
    iSpecialize ("K" with "L1 L2"). cbn. by destruct u1.
  - iDestruct (ex_chain_cons with "L1") as (n1 ha ha') "(H1 & L1 & %C1)". iDestruct (ex_chain_cons with "L2") as (n2 hb hb') "(H2 & L2 & %C2)".
    unfold inode in *. iDestruct (ex_cell with "H1") as "[%D1 H1]". iDestruct (ex_cell with "H2") as "[%D2 H2]".
    iDestruct (cell_neq with "[$H1 $H2]") as "(%Ne & H1 & H2)". rewrite Ne E1 E2. cbn [orb].
    iApply wp_bind. iApply (wp_get_iface p1 (u1, o1)). iFrame "H1". iIntros "H1".
    iApply wp_bind. iApply (wp_get_iface p2 (u2, o2)). iFrame "H2". iIntros "H2". cbn [fst snd head] in *.
    destruct u1 as [u1|], u2 as [u2|]; try done. iApply wp_ret. iApply ("K" with "[H1 L1]").
    + iApply C1. iFrame "L1". by iApply D1.
    + iApply C2. iFrame "L2". by iApply D2.
Qed.
Fixpoint gfind (g : gen) (l : list gen) : option bool :=
  match l with
  | [] => Some false
  | x :: l' =>
      if iface_eqb (g_iface g) (g_iface x)
      then if match g_iface g with None => false | Some _ => opt_Z_eqb (g_data g) (g_data x) end then Some true else None
      else gfind g l'
  end.
Definition gens_have_uri (l : list gen) : Prop := Forall (λ g, has_uri (g_iface g)) l.
Lemma head_iface_list i : head (iface_list i) = i.
Proof. by destruct i. Qed.
Lemma wp_generic_equal_inner g l : ∀ h1 h2 p1 n1 p2 fuel (Q : _ → oprop), (List.length l < fuel)%nat →
  has_uri (g_iface g) → gens_have_uri l →
  ex h2 (glist p2 l) ∗ ex h1 (gnode p1 g n1) ∗ (ex h1 (gnode p1 g n1) -∗ ex h2 (glist p2 l) -∗ Q (gfind g l))
  ⊢ wp (generic_equal_inner fuel p1 p2) Q.
Proof.
  induction l as [|x l IH]; intros h1 h2 p1 n1 p2 [|fuel] Q Hf U1 U2; try (cbn in Hf; lia); cbn [generic_equal_inner].
  - iIntros "(L & G & K)". iDestruct (ex_chain_isnull with "L") as "[%E L]". rewrite E. iApply wp_ret. iApply ("K" with "G L").
  - iIntros "(L & G & K)". apply Forall_cons_1 in U2 as [U2 V2].
    iDestruct (ex_chain_cons with "L") as (n2 ha hb) "(H & L & %C)". iDestruct (ex_node_nonnull with "H") as "[%E H]". rewrite E.
    iDestruct (ex_gnode with "G") as (d1 i1 hd1 hi1) "(G & D1 & I1 & %C1 & _)".
    iDestruct (ex_gnode with "H") as (d2 i2 hd2 hi2) "(H & D2 & I2 & %C2 & _)".
    iApply wp_bind. iApply wp_get_gen. iFrame "G". iIntros "G". iApply wp_bind. iApply wp_get_gen. iFrame "H". iIntros "H".
    iApply wp_bind. iApply (wp_interface_equal hi1 hi2 i1 i2 (iface_list (g_iface g)) (iface_list (g_iface x))).
    { by rewrite head_iface_list. }
    { by rewrite head_iface_list. }
    iFrame "I1 I2". iIntros "I1 I2". rewrite !head_iface_list. cbn [gfind]. destruct (iface_eqb (g_iface g) (g_iface x)).
    + iApply wp_bind. iDestruct (ex_chain_isnull with "I1") as "[%Ei I1]". rewrite Ei.
      destruct (g_iface g) as [y|] eqn:Eg; cbn [iface_list].
      * iDestruct (ex_chain_cons with "I1") as (m hx hy) "(I1 & J1 & %C3)".
        iApply (wp_data_equal hd1 hd2 hx). iFrame "I1 D1 D2". iIntros "I1 D1 D2".
        iAssert (ex h1 (gnode p1 g n1)) with "[G D1 I1 J1]" as "G".
        { iApply C1. rewrite ?Eg. iFrame "G D1". iApply C3. iFrame. }
        iAssert (ex h2 (glist p2 (x :: l))) with "[H D2 I2 L]" as "L".
        { iApply C. iFrame "L". iApply C2. iFrame. }
        destruct (opt_Z_eqb (g_data g) (g_data x)); iApply wp_ret; iApply ("K" with "G L").
      * iApply wp_ret. iApply wp_ret. iApply ("K" with "[G D1 I1]"); [iApply C1; rewrite ?Eg; iFrame|].
        iApply C. iFrame "L". iApply C2. iFrame.
    + iApply (IH h1 hb p1 n1); [cbn in Hf; lia|done|done|]. iFrame "L". iSplitL "G D1 I1"; [iApply C1; iFrame|].
      iIntros "G L". iApply ("K" with "G"). iApply C. iFrame "L". iApply C2. iFrame.
Qed.
Definition gall (l1 l2 : list gen) : bool := forallb (λ g, match gfind g l2 with Some true => true | _ => false end) l1.
Lemma wp_generic_equal_outer l1 : ∀ l2 h1 h2 p1 p2 fuel (Q : bool → oprop), (List.length l1 < fuel)%nat →
  gens_have_uri l1 → gens_have_uri l2 →
  ex h1 (glist p1 l1) ∗ ex h2 (glist p2 l2) ∗ (ex h1 (glist p1 l1) -∗ ex h2 (glist p2 l2) -∗ Q (gall l1 l2))
  ⊢ wp (generic_equal_outer fuel p1 p2) Q.
Proof.
  induction l1 as [|g l1 IH]; intros l2 h1 h2 p1 p2 [|fuel] Q Hf U1 U2; try (cbn in Hf; lia); cbn [generic_equal_outer].
  - iIntros "(L1 & L2 & K)". iDestruct (ex_chain_isnull with "L1") as "[%E L1]". rewrite E. iApply wp_ret. iApply ("K" with "L1 L2").
  - iIntros "(L1 & L2 & K)". apply Forall_cons_1 in U1 as [U1 V1].
    iDestruct (ex_chain_cons with "L1") as (n1 ha hb) "(G & L1 & %C)". iDestruct (ex_node_nonnull with "G") as "[%E G]". rewrite E.
    iApply wp_bind. iCombine "G L1 K" as "K". iCombine "L2 K" as "K". iStopProof.
    apply (wp_loop_on (List.length l2)); [apply ex_chain_size, _|]. intros k Hk. iIntros "(L2 & G & L1 & K)".
    iApply (wp_generic_equal_inner g l2 ha h2 p1 n1); [done|done|done|]. iFrame "L2 G". iIntros "G L2".
    unfold gall. cbn [forallb]. destruct (gfind g l2) as [[]|]; cbn [andb].
    + iApply wp_bind. iApply wp_get_gen_ex. iFrame "G". iIntros (d i) "_ G". iApply (IH l2 hb h2); [cbn in Hf; lia|done|done|].
      iFrame "L1 L2". iIntros "L1 L2". iApply ("K" with "[G L1] L2"). iApply C. iFrame.
    + iApply wp_ret. iApply ("K" with "[G L1] L2"). iApply C. iFrame.
    + iApply wp_ret. iApply ("K" with "[G L1] L2"). iApply C. iFrame.
Qed.
Definition gens_eqb (l1 l2 : list gen) : bool := (Z.of_nat (List.length l1) =? Z.of_nat (List.length l2)) && gall l1 l2.
Lemma ex_chain_neq {A B} (node1 : ptr → A → ptr → oprop) (node2 : ptr → B → ptr → oprop) `{!Node node1} `{!Node node2} h1 h2 p q a l b l' :
  ex h1 (chain node1 p (a :: l)) ∗ ex h2 (chain node2 q (b :: l')) ⊢
  <affine> ⌜Z.eqb p q = false⌝ ∗ ex h1 (chain node1 p (a :: l)) ∗ ex h2 (chain node2 q (b :: l')).
Proof.
  assert (X : chain node1 p (a :: l) ∗ chain node2 q (b :: l') ⊢ ⌜Z.eqb p q = false⌝).
  { cbn [chain]. iIntros "[(%n & H & _) (%n' & H' & _)]".
    iDestruct (node_cell with "H") as (v R1) "[H _]". iDestruct (node_cell with "H'") as (v' R2) "[H' _]".
    iDestruct (cell_neq with "[$H $H']") as "(% & _)". done. }
  destruct X as [X]. constructor. intros h (ha & hb & -> & D & [-> Ha] & [-> Hb]).
  exists ∅, (h1 ∪ h2). rewrite left_id_L. split_and!; [done|apply map_disjoint_empty_l| |exists h1, h2; by split_and!].
  split; [done|]. pose (hu := h1 ∪ h2). apply (X hu). exists h1, h2. split; [reflexivity|]. split; [exact D|]. split; [exact Ha|exact Hb].
Qed.
Lemma wp_generic_equal l1 l2 h1 h2 p1 p2 (Q : bool → oprop) : gens_have_uri l1 → gens_have_uri l2 →
  ex h1 (glist p1 l1) ∗ ex h2 (glist p2 l2) ∗ (ex h1 (glist p1 l1) -∗ ex h2 (glist p2 l2) -∗ Q (gens_eqb l1 l2))
  ⊢ wp (osl_generic_equal_p p1 p2) Q.
Proof.
  intros U1 U2. iIntros "(L1 & L2 & K)". unfold osl_generic_equal_p.
  iAssert (<affine> ⌜if Z.eqb p1 p2 then l1 = [] ∧ l2 = [] else True⌝ ∗ ex h1 (glist p1 l1) ∗ ex h2 (glist p2 l2))%I
    with "[L1 L2]" as "(%E & L1 & L2)".
  { iDestruct (ex_chain_isnull with "L1") as "[%E1 L1]". iDestruct (ex_chain_isnull with "L2") as "[%E2 L2]".
    destruct l1 as [|g1 l1], l2 as [|g2 l2].
    - iFrame. iPureIntro. by destruct (Z.eqb p1 p2).
    - iFrame. iPureIntro. destruct (Z.eqb_spec p1 p2) as [->|]; [by rewrite E1 in E2|done].
    - iFrame. iPureIntro. destruct (Z.eqb_spec p1 p2) as [->|]; [by rewrite E1 in E2|done].
    - iDestruct (ex_chain_neq with "[$L1 $L2]") as "(%N & L1 & L2)". iFrame. iPureIntro. by rewrite N. }
  destruct (Z.eqb p1 p2).
  { destruct E as [-> ->]. iApply wp_ret. iApply ("K" with "L1 L2"). }
  iApply wp_bind. iApply wp_generic_count. iFrame "L1". iIntros "L1". iApply wp_bind. iApply wp_generic_count. iFrame "L2". iIntros "L2".
  unfold gens_eqb. destruct (_ =? _); cbn [negb andb].
  - iCombine "L2 K" as "K". iCombine "L1 K" as "K". iStopProof.
    apply (wp_loop_on (List.length l1)); [apply ex_chain_size, _|]. intros k Hk. by apply wp_generic_equal_outer.
  - iApply wp_ret. iApply ("K" with "L1 L2").
Qed.
End E.
