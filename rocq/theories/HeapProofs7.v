(** * HeapProofs7: comparison of statements and scops *)
From stdpp Require Import gmap.
From iris.proofmode Require Import tactics.
From Coq Require Import ZifyBool ZifyNat.
From Verif Require Import Base IntModel VectorModel RelationModel RelSpec RelationProofs2 HeapModel HeapObjects HeapEqual HeapSpec EqualSpec HeapLogic PropStrings
  HeapProofs HeapProofs2 HeapProofs3 HeapProofs4 HeapProofs5 HeapProofs6.
Local Open Scope string_scope.
Local Open Scope list_scope.
Local Open Scope Z_scope.
Local Open Scope bi_scope.

Section PURE.
Lemma str_eqb_iff' a b : str_eqb a b = true ↔ a = b.
Proof. apply PropStrings.str_eqb_eq. Qed.
Lemma iface_eqb_iff a b : has_uri a → has_uri b → iface_eqb a b = true ↔ a = b.
Proof.
  destruct a as [[[u1|] o1]|], b as [[[u2|] o2]|]; cbn; try done.
  intros _ _. rewrite andb_true_iff str_eqb_iff' Z.eqb_eq. split; [intros [-> ->]|intros [= -> ->]]; done.
Qed.
Lemma uri_has_uri g : g_uri g ≠ None → has_uri (g_iface g) ∧ g_iface g ≠ None.
Proof. unfold g_uri. destruct (g_iface g) as [[[]]|]; done. Qed.
Lemma unique_have_uri l : unique_gens l → gens_have_uri l.
Proof. intros [H _]. eapply Forall_impl; [|exact H]. intros g Hg. by apply uri_has_uri. Qed.
Lemma unique_gens_cons g l : unique_gens (g :: l) → g_uri g ≠ None ∧ ¬ In (g_uri g) (map g_uri l) ∧ unique_gens l.
Proof.
  intros [H1 H2]. inversion H1; subst. inversion H2; subst. by split_and!.
Qed.
Lemma gfind_iff g l : g_uri g ≠ None → unique_gens l → gfind g l = Some true ↔ In g l.
Proof.
  intros Hg. pose proof (uri_has_uri g Hg) as [Ug Ig]. induction l as [|x l IH]; intros Hl; [by split|].
  apply unique_gens_cons in Hl as (Hx & Hn & Hl). pose proof (uri_has_uri x Hx) as [Ux Ix]. cbn [gfind In].
  destruct (iface_eqb (g_iface g) (g_iface x)) eqn:E.
  - apply iface_eqb_iff in E; [|done|done]. destruct (g_iface g) as [y|] eqn:Ey; [|done].
    destruct (opt_Z_eqb (g_data g) (g_data x)) eqn:Ed.
    + apply opt_Z_eqb_iff in Ed. split; [|done]. intros _. left. destruct g, x; cbn in *. congruence.
    + split; [done|]. intros [->|Hin].
      * exfalso. assert (opt_Z_eqb (g_data g) (g_data g) = true) by (by apply opt_Z_eqb_iff). congruence.
      * exfalso. apply Hn. rewrite in_map_iff. exists g. split; [|done]. unfold g_uri. by rewrite Ey -E.
  - rewrite IH; [|done]. split; [by right|]. intros [->|Hin]; [|done]. exfalso.
    assert (iface_eqb (g_iface g) (g_iface g) = true) by (by apply iface_eqb_iff). congruence.
Qed.
Lemma unique_NoDup l : unique_gens l → List.NoDup l.
Proof. intros [_ H]. by eapply NoDup_map_inv. Qed.
Lemma gens_eqb_iff l1 l2 : unique_gens l1 → unique_gens l2 → gens_eqb l1 l2 = true ↔ l1 ≡ₚ l2.
Proof.
  intros U1 U2. unfold gens_eqb, gall. rewrite andb_true_iff forallb_forall Z.eqb_eq.
  assert (X : ∀ g, In g l1 → (match gfind g l2 with Some true => true | _ => false end = true ↔ In g l2)).
  { intros g Hin. rewrite -(gfind_iff g l2); [|destruct U1 as [U1 _]; rewrite List.Forall_forall in U1; by apply U1|done].
    destruct (gfind g l2) as [[]|]; done. }
  split.
  - intros [Hl H]. pose proof (unique_NoDup _ U1) as N1.
    apply Permutation.NoDup_Permutation_bis; [done|lia|].
    intros g Hin. apply X; [done|]. by apply H.
  - intros H. split; [by rewrite H|]. intros g Hin. apply X; [done|]. rewrite -elem_of_list_In -H. by apply elem_of_list_In.
Qed.
Lemma unique_ifaces_head l : unique_ifaces l → has_uri (head l).
Proof. intros [H _]. destruct l as [|[[u|] o] l]; cbn; try done. inversion H; subst. done. Qed.
End PURE.

Section E.
Context {cfg : config} {al : Allocator obj}.

Lemma wp_statement_equal_rec l1 : ∀ l2 s1 s2 h1 h2 p1 p2 fuel (Q : bool → oprop), (List.length l1 < fuel)%nat →
  Forall (wf_stmt cfg) (s1 :: l1) → Forall (wf_stmt cfg) (s2 :: l2) →
  ex h1 (slist p1 (s1 :: l1)) ∗ ex h2 (slist p2 (s2 :: l2)) ∗
  (∀ b, <affine> ⌜b = true ↔ Forall2 same_stmt (s1 :: l1) (s2 :: l2)⌝ -∗ ex h1 (slist p1 (s1 :: l1)) -∗ ex h2 (slist p2 (s2 :: l2)) -∗ Q b)
  ⊢ wp (statement_equal_rec fuel p1 p2) Q.
Proof.
  induction l1 as [|t1 l1 IH]; intros l2 s1 s2 h1 h2 p1 p2 [|fuel] Q Hf W1 W2; try (cbn in Hf; lia); cbn [statement_equal_rec].
  all: iIntros "(L1 & L2 & K)"; iDestruct (ex_chain_neq with "[$L1 $L2]") as "(%Ne & L1 & L2)"; rewrite Ne.
  all: apply Forall_cons_1 in W1 as [(WD1 & WS1 & WA1 & WE1) V1]; apply Forall_cons_1 in W2 as [(WD2 & WS2 & WA2 & WE2) V2].
  all: iDestruct (ex_chain_cons with "L1") as (n1 ha1 hb1) "(H1 & L1 & %C1)"; iDestruct (ex_chain_cons with "L2") as (n2 ha2 hb2) "(H2 & L2 & %C2)".
  all: iDestruct (ex_snode with "H1") as (d1 sc1 a1 e1 hd1 hs1 hr1 he1) "(H1 & D1 & S1 & A1 & E1 & %B1)".
  all: iDestruct (ex_snode with "H2") as (d2 sc2 a2 e2 hd2 hs2 hr2 he2) "(H2 & D2 & S2 & A2 & E2 & %B2)".
  all: iApply wp_bind; iApply wp_get_stmt; iFrame "H1"; iIntros "H1"; iApply wp_bind; iApply wp_get_stmt; iFrame "H2"; iIntros "H2".
  all: iDestruct (ex_chain_isnull with "L1") as "[%N1 L1]"; iDestruct (ex_chain_isnull with "L2") as "[%N2 L2]"; rewrite N1 N2.
  - destruct l2 as [|t2 l2]; cbn [negb andb orb].
    2:{ iApply wp_ret. iApply ("K" with "[] [H1 D1 S1 A1 E1 L1]").
        - iPureIntro. split; [done|]. intros F. inversion F as [|? ? ? ? ? F']; subst. inversion F'.
        - iApply C1. iFrame "L1". iApply B1. iFrame.
        - iApply C2. iFrame "L2". iApply B2. iFrame. }
    iApply wp_bind. iApply wp_ret. cbn [negb].
    iApply wp_bind. iApply (wp_relation_equal (st_domain s1) (st_domain s2) hd1 hd2); [done|done|]. iFrame "D1 D2". iIntros (b1) "%Hb1 D1 D2".
    destruct b1; cbn [negb].
    2:{ iApply wp_ret. iApply ("K" with "[] [H1 D1 S1 A1 E1 L1]").
        - iPureIntro. split; [done|]. intros F. inversion F as [|? ? ? ? [? ? ? ?] F']; subst. tauto.
        - iApply C1. iFrame "L1". iApply B1. iFrame.
        - iApply C2. iFrame "L2". iApply B2. iFrame. }
    iApply wp_bind. iApply (wp_relation_equal (st_scattering s1) (st_scattering s2) hs1 hs2); [done|done|]. iFrame "S1 S2". iIntros (b2) "%Hb2 S1 S2".
    destruct b2; cbn [negb].
    2:{ iApply wp_ret. iApply ("K" with "[] [H1 D1 S1 A1 E1 L1]").
        - iPureIntro. split; [done|]. intros F. inversion F as [|? ? ? ? [? ? ? ?] F']; subst. tauto.
        - iApply C1. iFrame "L1". iApply B1. iFrame.
        - iApply C2. iFrame "L2". iApply B2. iFrame. }
    iApply wp_bind. iApply (wp_list_equal (st_access s1) (st_access s2) hr1 hr2); [done|done|]. iFrame "A1 A2". iIntros (b3) "%Hb3 A1 A2".
    destruct b3; cbn [negb].
    2:{ iApply wp_ret. iApply ("K" with "[] [H1 D1 S1 A1 E1 L1]").
        - iPureIntro. split; [done|]. intros F. inversion F as [|? ? ? ? [? ? ? ?] F']; subst. tauto.
        - iApply C1. iFrame "L1". iApply B1. iFrame.
        - iApply C2. iFrame "L2". iApply B2. iFrame. }
    iApply (wp_generic_equal (st_extension s1) (st_extension s2) he1 he2); [by apply unique_have_uri|by apply unique_have_uri|]. iFrame "E1 E2". iIntros "E1 E2".
    iApply ("K" with "[] [H1 D1 S1 A1 E1 L1]").
    + iPureIntro. rewrite gens_eqb_iff; [|done|done]. split.
      * intros He. constructor; [|constructor]. constructor; tauto.
      * intros F. inversion F as [|? ? ? ? [? ? ? ?] F']; subst. done.
    + iApply C1. iFrame "L1". iApply B1. iFrame.
    + iApply C2. iFrame "L2". iApply B2. iFrame.
  - destruct l2 as [|t2 l2]; cbn [negb andb orb].
    { iApply wp_ret. iApply ("K" with "[] [H1 D1 S1 A1 E1 L1]").
      - iPureIntro. split; [done|]. intros F. inversion F as [|? ? ? ? ? F']; subst. inversion F'.
      - iApply C1. iFrame "L1". iApply B1. iFrame.
      - iApply C2. iFrame "L2". iApply B2. iFrame. }
    iApply wp_bind. iApply (IH l2 t1 t2 hb1 hb2); [cbn in Hf; lia|done|done|]. iFrame "L1 L2". iIntros (b0) "%Hb0 L1 L2".
    destruct b0; cbn [negb].
    2:{ iApply wp_ret. iApply ("K" with "[] [H1 D1 S1 A1 E1 L1]").
        - iPureIntro. split; [done|]. intros F. inversion F as [|? ? ? ? [? ? ? ?] F']; subst. tauto.
        - iApply C1. iFrame "L1". iApply B1. iFrame.
        - iApply C2. iFrame "L2". iApply B2. iFrame. }
    iApply wp_bind. iApply (wp_relation_equal (st_domain s1) (st_domain s2) hd1 hd2); [done|done|]. iFrame "D1 D2". iIntros (b1) "%Hb1 D1 D2".
    destruct b1; cbn [negb].
    2:{ iApply wp_ret. iApply ("K" with "[] [H1 D1 S1 A1 E1 L1]").
        - iPureIntro. split; [done|]. intros F. inversion F as [|? ? ? ? [? ? ? ?] F']; subst. tauto.
        - iApply C1. iFrame "L1". iApply B1. iFrame.
        - iApply C2. iFrame "L2". iApply B2. iFrame. }
    iApply wp_bind. iApply (wp_relation_equal (st_scattering s1) (st_scattering s2) hs1 hs2); [done|done|]. iFrame "S1 S2". iIntros (b2) "%Hb2 S1 S2".
    destruct b2; cbn [negb].
    2:{ iApply wp_ret. iApply ("K" with "[] [H1 D1 S1 A1 E1 L1]").
        - iPureIntro. split; [done|]. intros F. inversion F as [|? ? ? ? [? ? ? ?] F']; subst. tauto.
        - iApply C1. iFrame "L1". iApply B1. iFrame.
        - iApply C2. iFrame "L2". iApply B2. iFrame. }
    iApply wp_bind. iApply (wp_list_equal (st_access s1) (st_access s2) hr1 hr2); [done|done|]. iFrame "A1 A2". iIntros (b3) "%Hb3 A1 A2".
    destruct b3; cbn [negb].
    2:{ iApply wp_ret. iApply ("K" with "[] [H1 D1 S1 A1 E1 L1]").
        - iPureIntro. split; [done|]. intros F. inversion F as [|? ? ? ? [? ? ? ?] F']; subst. tauto.
        - iApply C1. iFrame "L1". iApply B1. iFrame.
        - iApply C2. iFrame "L2". iApply B2. iFrame. }
    iApply (wp_generic_equal (st_extension s1) (st_extension s2) he1 he2); [by apply unique_have_uri|by apply unique_have_uri|]. iFrame "E1 E2". iIntros "E1 E2".
    iApply ("K" with "[] [H1 D1 S1 A1 E1 L1]").
    + iPureIntro. rewrite gens_eqb_iff; [|done|done]. split.
      * intros He. constructor; [|by apply Hb0]. constructor; tauto.
      * intros F. inversion F as [|? ? ? ? [? ? ? ?] F']; subst. done.
    + iApply C1. iFrame "L1". iApply B1. iFrame.
    + iApply C2. iFrame "L2". iApply B2. iFrame.
Qed.
Lemma wp_statement_equal l1 l2 h1 h2 p1 p2 (Q : bool → oprop) : (l1 = [] ↔ l2 = []) →
  Forall (wf_stmt cfg) l1 → Forall (wf_stmt cfg) l2 →
  ex h1 (slist p1 l1) ∗ ex h2 (slist p2 l2) ∗
  (∀ b, <affine> ⌜b = true ↔ Forall2 same_stmt l1 l2⌝ -∗ ex h1 (slist p1 l1) -∗ ex h2 (slist p2 l2) -∗ Q b)
  ⊢ wp (osl_statement_equal_p p1 p2) Q.
Proof.
  intros Hl W1 W2. apply (wp_loop_on (List.length l1)); [apply ex_chain_size, _|]. intros k Hk.
  destruct l1 as [|s1 l1].
  - destruct Hl as [Hl _]. rewrite (Hl eq_refl) in W2 |- *. iIntros "(L1 & L2 & K)".
    iDestruct (ex_chain_isnull with "L1") as "[%N1 L1]"; iDestruct (ex_chain_isnull with "L2") as "[%N2 L2]".
    destruct k as [|k]; [lia|]. cbn [statement_equal_rec].
    assert (p1 = p2) as ->. { unfold isnull in *. lia. } rewrite Z.eqb_refl. iApply wp_ret. iApply ("K" with "[] L1 L2").
    iPureIntro. split; [constructor|done].
  - destruct l2 as [|s2 l2]; [destruct Hl as [_ Hl]; by specialize (Hl eq_refl)|].
    apply wp_statement_equal_rec; [cbn in Hk; lia|done|done].
Qed.
Lemma wp_scop_equal_loop l1 : ∀ l2 h1 h2 p1 p2 fuel (Q : bool → oprop), (List.length l1 < fuel)%nat →
  Forall (wf_scop cfg) l1 → Forall (wf_scop cfg) l2 → comparable_all l1 l2 →
  ex h1 (sclist p1 l1) ∗ ex h2 (sclist p2 l2) ∗
  (∀ b, <affine> ⌜b = true ↔ Forall2 (λ a b, (same_scop a b ∧ same_first_iface a b)%type) l1 l2⌝ -∗ ex h1 (sclist p1 l1) -∗ ex h2 (sclist p2 l2) -∗ Q b)
  ⊢ wp (scop_equal_loop fuel p1 p2) Q.
Proof.
  induction l1 as [|s1 l1 IH]; intros l2 h1 h2 p1 p2 [|fuel] Q Hf W1 W2 HC; try (cbn in Hf; lia); cbn [scop_equal_loop].
  - iIntros "(L1 & L2 & K)". iDestruct (ex_chain_isnull with "L1") as "[%E1 L1]". iDestruct (ex_chain_isnull with "L2") as "[%E2 L2]".
    rewrite E1 E2. destruct l2; cbn [andb orb negb]; iApply wp_ret; iApply ("K" with "[] L1 L2"); iPureIntro; split; try done.
    intros F. inversion F.
  - iIntros "(L1 & L2 & K)". iDestruct (ex_chain_isnull with "L1") as "[%E1 L1]". iDestruct (ex_chain_isnull with "L2") as "[%E2 L2]".
    rewrite E1 E2. destruct l2 as [|s2 l2]; cbn [andb orb negb].
    { iApply wp_ret. iApply ("K" with "[] L1 L2"). iPureIntro. split; [done|]. intros F. inversion F. }
    destruct HC as [(HL1 & HL2 & HS) HC].
    apply Forall_cons_1 in W1 as [(WC1 & WP1 & WS1 & WR1 & WX1) V1]. apply Forall_cons_1 in W2 as [(WC2 & WP2 & WS2 & WR2 & WX2) V2].
    iDestruct (ex_chain_neq with "[$L1 $L2]") as "(%Ne & L1 & L2)". rewrite Ne.
    iDestruct (ex_chain_cons with "L1") as (n1 ha1 hb1) "(H1 & L1 & %C1)". iDestruct (ex_chain_cons with "L2") as (n2 ha2 hb2) "(H2 & L2 & %C2)".
    iDestruct (ex_scnode with "H1") as (c1 pa1 st1 r1 e1) "(%hc1 & %hp1 & %hs1 & %hr1 & %he1 & H1 & Z1 & P1 & S1 & R1 & X1 & %B1)".
    iDestruct (ex_scnode with "H2") as (c2 pa2 st2 r2 e2) "(%hc2 & %hp2 & %hs2 & %hr2 & %he2 & H2 & Z2 & P2 & S2 & R2 & X2 & %B2)".
    iApply wp_bind. iApply wp_get_scop. iFrame "H1". iIntros "H1". iApply wp_bind. iApply wp_get_scop. iFrame "H2". iIntros "H2".
    cbn [sn_version sn_language sn_context sn_parameters sn_statement sn_registry sn_extension sn_next].
    destruct (Z.eqb_spec (sc_version s1) (sc_version s2)) as [Ev|Ev]; cbn [negb].
    2:{ iApply wp_ret. iApply ("K" with "[] [H1 P1 S1 R1 X1 L1 Z1]").
        - iPureIntro. split; [done|]. intros F. inversion F as [|? ? ? ? [[? ? ? ? ? ?] ?] F']; subst. tauto.
        - iApply C1. iFrame "L1". iApply B1. iFrame.
        - iApply C2. iFrame "L2". iApply B2. iFrame. }
    destruct (sc_language s1) as [g1|] eqn:El1; [|done]. destruct (sc_language s2) as [g2|] eqn:El2; [|done].
    pose proof (str_eqb_iff' g1 g2) as Hg. destruct (str_eqb g1 g2) eqn:Eg; cbn [negb].
    2:{ iApply wp_ret. iApply ("K" with "[] [H1 P1 S1 R1 X1 L1 Z1]").
        - iPureIntro. split; [done|]. intros F. inversion F as [|? ? ? ? [[? ? ? ? ? ?] ?] F']; subst.
          assert (g1 = g2) by congruence. tauto.
        - iApply C1. iFrame "L1". iApply B1. rewrite ?El1. iFrame.
        - iApply C2. iFrame "L2". iApply B2. rewrite ?El2. iFrame. }
    assert (g1 = g2) as <- by tauto. clear Hg Eg.
    iApply wp_bind. iApply (wp_relation_equal (sc_context s1) (sc_context s2) hc1 hc2); [done|done|]. iFrame "Z1 Z2". iIntros (b1) "%Hb1 Z1 Z2".
    destruct b1; cbn [negb].
    2:{ iApply wp_ret. iApply ("K" with "[] [H1 P1 S1 R1 X1 L1 Z1]").
        - iPureIntro. split; [done|]. intros F. inversion F as [|? ? ? ? [[? ? ? ? ? ?] ?] F']; subst. tauto.
        - iApply C1. iFrame "L1". iApply B1. iFrame.
        - iApply C2. iFrame "L2". iApply B2. iFrame. }
    iApply wp_bind. iApply (wp_generic_equal (sc_parameters s1) (sc_parameters s2) hp1 hp2); [by apply unique_have_uri|by apply unique_have_uri|]. iFrame "P1 P2". iIntros "P1 P2".
    pose proof (gens_eqb_iff _ _ WP1 WP2) as Hb2. set (b2 := gens_eqb (sc_parameters s1) (sc_parameters s2)) in *. clearbody b2.
    destruct b2; cbn [negb].
    2:{ iApply wp_ret. iApply ("K" with "[] [H1 P1 S1 R1 X1 L1 Z1]").
        - iPureIntro. split; [done|]. intros F. inversion F as [|? ? ? ? [[? ? ? ? ? ?] ?] F']; subst. tauto.
        - iApply C1. iFrame "L1". iApply B1. iFrame.
        - iApply C2. iFrame "L2". iApply B2. iFrame. }
    iApply wp_bind. iApply (wp_statement_equal (sc_statement s1) (sc_statement s2) hs1 hs2); [done|done|done|]. iFrame "S1 S2". iIntros (b3) "%Hb3 S1 S2".
    destruct b3; cbn [negb].
    2:{ iApply wp_ret. iApply ("K" with "[] [H1 P1 S1 R1 X1 L1 Z1]").
        - iPureIntro. split; [done|]. intros F. inversion F as [|? ? ? ? [[? ? ? ? ? ?] ?] F']; subst. tauto.
        - iApply C1. iFrame "L1". iApply B1. iFrame.
        - iApply C2. iFrame "L2". iApply B2. iFrame. }
    iApply wp_bind. iApply (wp_interface_equal hr1 hr2 r1 r2 (sc_registry s1) (sc_registry s2)); [by apply unique_ifaces_head|by apply unique_ifaces_head|]. iFrame "R1 R2". iIntros "R1 R2".
    pose proof (iface_eqb_iff _ _ (unique_ifaces_head _ WR1) (unique_ifaces_head _ WR2)) as Hb4. set (b4 := iface_eqb (head (sc_registry s1)) _) in *. clearbody b4.
    destruct b4; cbn [negb].
    2:{ iApply wp_ret. iApply ("K" with "[] [H1 P1 S1 R1 X1 L1 Z1]").
        - iPureIntro. split; [done|]. intros F. inversion F as [|? ? ? ? [[? ? ? ? ? ?] ?] F']; subst. tauto.
        - iApply C1. iFrame "L1". iApply B1. iFrame.
        - iApply C2. iFrame "L2". iApply B2. iFrame. }
    iApply wp_bind. iApply (wp_generic_equal (sc_extension s1) (sc_extension s2) he1 he2); [by apply unique_have_uri|by apply unique_have_uri|]. iFrame "X1 X2". iIntros "X1 X2".
    pose proof (gens_eqb_iff _ _ WX1 WX2) as Hb5. set (b5 := gens_eqb (sc_extension s1) (sc_extension s2)) in *. clearbody b5.
    destruct b5; cbn [negb].
    2:{ iApply wp_ret. iApply ("K" with "[] [H1 P1 S1 R1 X1 L1 Z1]").
        - iPureIntro. split; [done|]. intros F. inversion F as [|? ? ? ? [[? ? ? ? ? ?] ?] F']; subst. tauto.
        - iApply C1. iFrame "L1". iApply B1. iFrame.
        - iApply C2. iFrame "L2". iApply B2. iFrame. }
    iApply (IH l2 hb1 hb2); [cbn in Hf; lia|done|done|done|]. iFrame "L1 L2". iIntros (b) "%Hb L1 L2".
    iApply ("K" with "[] [H1 P1 S1 R1 X1 L1 Z1]").
    + iPureIntro. rewrite Hb. split.
      * intros F. constructor; [|done]. split; [|unfold same_first_iface; tauto]. constructor; try tauto. congruence.
      * intros F. by inversion F.
    + iApply C1. iFrame "L1". iApply B1. iFrame.
    + iApply C2. iFrame "L2". iApply B2. iFrame.
Qed.
Lemma wp_scop_equal l1 l2 h1 h2 p1 p2 (Q : bool → oprop) :
  Forall (wf_scop cfg) l1 → Forall (wf_scop cfg) l2 → comparable_all l1 l2 →
  ex h1 (sclist p1 l1) ∗ ex h2 (sclist p2 l2) ∗
  (∀ b, <affine> ⌜b = true ↔ Forall2 (λ a b, (same_scop a b ∧ same_first_iface a b)%type) l1 l2⌝ -∗ ex h1 (sclist p1 l1) -∗ ex h2 (sclist p2 l2) -∗ Q b)
  ⊢ wp (osl_scop_equal_p p1 p2) Q.
Proof.
  intros W1 W2 HC. apply (wp_loop_on (List.length l1)); [apply ex_chain_size, _|]. intros k Hk. by apply wp_scop_equal_loop.
Qed.
End E.
