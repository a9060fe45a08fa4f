(** * PayloadProofs3: growing strings; bodies and the extensions with a fixed shape *)
From stdpp Require Import gmap.
From iris.proofmode Require Import tactics.
From Coq Require Import ZifyBool ZifyNat.
From Verif Require Import Base IntModel VectorModel RelationModel RelSpec StringsModel ExtModel HeapModel HeapObjects HeapSpec HeapLogic HeapProofs PayloadModel PayloadSpec PayloadProofs PayloadProofs2.
Local Open Scope string_scope.
Local Open Scope list_scope.
Local Open Scope Z_scope.
Local Open Scope bi_scope.

Ltac get H := iApply wp_bind; iApply wp_bind; iApply wp_get_block; iFrame H; iIntros H; iApply wp_ret.
Ltac getown E := iApply wp_bind; iApply wp_bind; iApply (wp_get_block_own _ _ _ _ E); iFrame "H"; iIntros "H"; iApply wp_ret.
Ltac putp H := iApply wp_bind; iApply wp_put; iFrame H; iIntros H.
Ltac sees_split H := repeat lazymatch type of H with
  | sees _ (somewhere _) => apply sees_somewhere in H as [? H]
  | sees _ (_ ⋆ _) => fail
  end.

Section R.
Context {cfg : config} {al : Allocator obj}.

(** ** Strings *)
Lemma grow_ptrs (ps : list ptr) (y : ptr) :
  <[List.length ps := Some y]> (<[(List.length ps + 1)%nat := Some NULL]> (resize (map Some (ps ++ [NULL])) (List.length ps + 2))) =
  map Some (ps ++ [y]) ++ [Some NULL].
Proof.
  rewrite resize_more; [|rewrite map_length app_length; cbn; lia]. rewrite map_length app_length.
  replace (List.length ps + 2 - _)%nat with 1%nat by (cbn; lia). rewrite !map_app -!app_assoc.
  rewrite (insert_app_r_alt (map Some ps)); [|rewrite map_length; lia]. rewrite map_length.
  replace (List.length ps + 1 - List.length ps)%nat with 1%nat by lia. cbn.
  rewrite insert_app_r_alt; [|rewrite map_length; lia]. rewrite map_length Nat.sub_diag. done.
Qed.
Lemma wp_strings_add h p x string s (Q : _ → oprop) : sees h (m_str string (Some s)) →
  own h ∗ M (m_strings p (Some x)) ∗ (own h -∗ M (m_strings p (Some (Some (elems x ++ [s])))) -∗ Q tt)
  ⊢ wp (osl_strings_add_p p string) Q.
Proof.
  intros Hs. iIntros "(H & S & K)". iApply wp_bind. iApply wp_strings_size. iFrame "S". iIntros "S".
  destruct x as [l|]; cbn [m_strings count elems].
  - iDestruct "S" as (w) "S". destruct w as [a ps]. iDestruct "S" as "(P & A & S)". rewrite !M_cell.
    iDestruct (m_strs_length with "S") as "[%E S]". rewrite map_length in E. rewrite -E.
    get "P". iApply wp_bind. iApply wp_realloc_ptrs. iFrame "A". iIntros (b) "B". putp "P".
    iApply wp_bind. iApply (wp_set_ptr b (resize (map Some (ps ++ [NULL])) (List.length ps + 2))).
    { rewrite resize_more; rewrite ?app_length ?map_length ?app_length ?repeat_length; cbn; lia. }
    iFrame "B". iIntros "B". iApply wp_bind. iApply wp_strdup; [done|]. iFrame "H". iIntros (y) "H Y".
    iApply (wp_set_ptr b (<[(List.length ps + 1)%nat := Some NULL]> (resize (map Some (ps ++ [NULL])) (List.length ps + 2)))).
    { rewrite insert_length resize_more; rewrite ?app_length ?map_length ?app_length ?repeat_length; cbn; lia. }
    iFrame "B". iIntros "B". rewrite grow_ptrs. iApply ("K" with "H"). iApply (m_strings_intro p b (ps ++ [y])). iFrame "P B".
    rewrite map_app. iApply m_strs_snoc. iFrame.
  - rewrite M_cell. get "S". iApply wp_bind. iApply wp_malloc. iIntros (b) "B". putp "S".
    iApply wp_bind. iApply (wp_set_ptr b [None; None]); [cbn; lia|]. iFrame "B". iIntros "B". 
    iApply wp_bind. iApply wp_strdup; [done|]. iFrame "H". iIntros (y) "H Y".
    iApply (wp_set_ptr b [None; Some NULL]); [cbn; lia|]. iFrame "B". iIntros "B". cbn. iApply ("K" with "H").
    iApply (m_strings_intro p b [y] [s]). iFrame "S B". cbn [map m_strs]. iSplitL "Y"; done.
Qed.
Lemma wp_strings_encapsulate p s (Q : _ → oprop) :
  M (m_str p (Some s)) ∗ (∀ q, M (m_strings q (Some (Some [s]))) -∗ Q q) ⊢ wp (osl_strings_encapsulate_p p) Q.
Proof.
  iIntros "[S K]". iApply wp_bind. iApply wp_strings_malloc_raw. iIntros (c a) "C A". get "C".
  iApply wp_bind. iApply wp_free. iFrame "A". iApply wp_bind. iApply wp_malloc. iIntros (b) "B". putp "C".
  iApply wp_bind. iApply (wp_set_ptr b [None; None]); [cbn; lia|]. iFrame "B". iIntros "B". 
  iApply wp_bind. iApply (wp_set_ptr b [Some p; None]); [cbn; lia|]. iFrame "B". iIntros "B". cbn. iApply wp_ret. iApply "K".
  iApply (m_strings_intro c b [p] [s]). iFrame "C B". cbn [map m_strs]. iSplitL "S"; done.
Qed.
Lemma generate_firstn prefix n : ∀ k i, (k ≤ n)%nat → firstn k (generate_loop prefix n i) = generate_loop prefix k i.
Proof.
  induction n as [|n IH]; intros [|k] i H; try done; [lia|]. cbn. f_equal. apply IH. lia.
Qed.
Lemma generate_length prefix n : ∀ i, List.length (generate_loop prefix n i) = n.
Proof. induction n as [|n IH]; intros i; cbn; [done|]. by rewrite IH. Qed.
Lemma generate_snoc prefix n : ∀ i, generate_loop prefix (S n) i = generate_loop prefix n i ++ [prefix ++ print_Z (i + Z.of_nat n + 1)].
Proof.
  induction n as [|n IH]; intros i.
  - cbn -[print_Z]. do 3 f_equal. lia.
  - change (generate_loop prefix (S (S n)) i) with ((prefix ++ print_Z (i + 1)) :: generate_loop prefix (S n) (i + 1)). rewrite IH.
    cbn -[print_Z]. do 5 f_equal. lia.
Qed.
Lemma wp_strings_generate prefix n x (Q : _ → oprop) : osl_strings_generate prefix (Z.of_nat n) = Ok x →
  (∀ q, M (m_strings q (Some x)) -∗ Q q) ⊢ wp (osl_strings_generate_p prefix n) Q.
Proof.
  intros Hx. iIntros "K". iApply wp_bind. unfold osl_strings_generate in Hx. destruct n as [|n].
  - cbn in Hx. injection Hx as <-. cbn [Nat.eqb]. iApply wp_ret. iApply wp_bind. iApply wp_strings_malloc_raw. iIntros (c a) "C A".
    get "C". iApply wp_bind. iApply wp_free. iFrame "A". putp "C". iApply wp_ret. iApply "K". done.
  - destruct (Z.of_nat (S n) =? 0) eqn:E1; [lia|]. destruct (Z.of_nat (S n) <? 0) eqn:E2; [lia|]. rewrite Nat2Z.id in Hx.
    injection Hx as <-. cbn [Nat.eqb]. iApply wp_bind. iApply wp_malloc. iIntros (b) "B". 
    iApply wp_bind. iApply (wp_set_ptr b (repeat None (S n + 1))); [rewrite repeat_length; lia|]. iFrame "B". iIntros "B". rewrite new_table.
    set (m := S n) in *.
    iApply wp_bind. iApply (wp_pfor0 (λ j, ∃ qs, <affine> ⌜List.length qs = j⌝ ∗ b ↦ CBlock (BPtrs (map Some qs ++ repeat None (m - j) ++ [Some NULL])) ∗ M (m_strs qs (map Some (generate_loop prefix j 0))))%I).
    + intros j Hj. iIntros "(%qs & %Hq & B & S)". subst j. iApply wp_bind. iApply wp_malloc. iIntros (q) "N".
      replace (m - List.length qs)%nat with (S (m - S (List.length qs))) by lia. cbn [repeat app].
      iApply wp_push_ptr. iFrame "B". iIntros "B". iExists (qs ++ [q]). rewrite app_length. iSplitR; [iPureIntro; cbn; lia|].
      iFrame "B". rewrite generate_snoc map_app Z.add_0_l. iApply m_strs_snoc. iFrame "S". done.
    + iSplitL "B". { iExists []. rewrite Nat.sub_0_r. iFrame "B". done. }
      iIntros "(%qs & %Hq & B & S)". rewrite Nat.sub_diag. iApply wp_ret. iApply wp_bind. iApply wp_strings_malloc_raw. iIntros (c a) "C A".
      get "C". iApply wp_bind. iApply wp_free. iFrame "A". putp "C". iApply wp_ret. iApply "K". iApply m_strings_intro. iFrame.
Qed.
Lemma wp_add_from h res str2 b ps l (Q : _ → oprop) : h !! str2 = Some (CBlock (BStrings b)) → h !! b = Some (CBlock (BPtrs (map Some (ps ++ [NULL])))) →
  sees h (m_strs ps (map Some l)) → ∀ fuel i y, (i ≤ List.length ps)%nat → (List.length ps - i < fuel)%nat →
  own h ∗ M (m_strings res (Some y)) ∗ (own h -∗ M (m_strings res (Some (Some (elems y ++ skipn i l)))) -∗ Q tt) ∗ <affine> ⌜(i < List.length ps)%nat ∨ y = Some (elems y)⌝
  ⊢ wp (add_from fuel res str2 i) Q.
Proof.
  intros H2 Hb Hs. pose proof (sees_strs_length _ _ _ Hs) as HL. rewrite map_length in HL.
  induction fuel as [|fuel IH]; intros i y Hi Hf; [lia|]. cbn [add_from]. iIntros "(H & S & K & %Hy)". getown H2. iApply wp_bind.
  destruct (decide (i = List.length ps)) as [->|Hne].
  - iApply wp_ptr_at_own; [done|apply end_lookup|]. iFrame "H". iIntros "H". cbn. iApply wp_ret. iApply ("K" with "H").
    rewrite HL skipn_all app_nil_r. destruct Hy as [Hy|Hy]; [lia|]. rewrite {1}Hy. done.
  - destruct (lookup_ex ps i) as [p Hp]; [lia|]. destruct (lookup_ex l i) as [s Hl]; [lia|].
    destruct (sees_strs h _ (Some s) ps i Hs (map_Some_lookup _ _ _ Hl)) as (p' & Hp' & Hps). rewrite Hp in Hp'. injection Hp' as <-.
    pose proof (sees_cell _ _ _ Hps) as [_ Hn]. iApply wp_ptr_at_own; [done|by apply mid_lookup|]. iFrame "H". iIntros "H". rewrite (null_ne p Hn).
    iApply wp_bind. iApply wp_strings_add; [done|]. iFrame "H S". iIntros "H S". iApply (IH (S i) (Some (elems y ++ [s]))); [lia|lia|]. iFrame "H S".
    iSplitL "K". { rewrite (drop_S l s i Hl). cbn [elems]. rewrite -app_assoc. done. } iPureIntro. by right.
Qed.
Lemma wp_strings_add_strings h p1 p2 x1 x2 y (Q : _ → oprop) : sees h (m_strings p1 (Some x1)) → sees h (m_strings p2 x2) → osl_strings_add_strings (Some x1) x2 = Ok y →
  own h ∗ (∀ q, own h -∗ M (m_strings q y) -∗ Q q) ⊢ wp (osl_strings_add_strings_p p1 p2) Q.
Proof.
  intros H1 H2 Hy. destruct x2 as [[l|]|]; try discriminate. unfold osl_strings_add_strings in Hy.
  assert (∃ c, osl_strings_clone (Some x1) = Some (Some c))%type as [c Hc]. { destruct x1 as [[|s l1]|]; eexists; done. }
  rewrite Hc in Hy. injection Hy as <-.
  iIntros "[H K]". iApply wp_bind. iApply (wp_strings_clone h p1 (Some x1)); [done|]. iFrame "H". iIntros (q) "H S". rewrite Hc.
  cbn [m_strings] in H2. apply sees_somewhere in H2 as [[a ps] H2]. apply sees_beside in H2 as [[Ha _]%sees_cell H2].
  apply sees_beside in H2 as [[Hb _]%sees_cell H2]. getown Ha. iApply wp_bind. iApply wp_get_ptrs_own; [done|]. iFrame "H". iIntros "H".
  iApply wp_bind. iApply (wp_add_from h q p2 a ps l); [done..|lia|rewrite map_length app_length; cbn; lia|]. iFrame "H S". iSplitL; [|iPureIntro; by right].
  iIntros "H S". iApply wp_ret. iApply ("K" with "H"). done.
Qed.

(** ** Bodies *)
Lemma wp_body_free p x (Q : _ → oprop) : M (m_body p x) ∗ Q tt ⊢ wp (osl_body_free_p p) Q.
Proof.
  unfold osl_body_free_p. destruct x as [b|]; cbn [m_body].
  - iIntros "[(%w & S) K]". destruct w as [i e]. iDestruct "S" as "(P & I & E)". rewrite M_cell.
    iDestruct (isnull_false with "P") as "[%Ep P]". rewrite Ep. get "P". iApply wp_bind. iApply wp_strings_free. iFrame "I".
    iApply wp_bind. iApply wp_strings_free. iFrame "E". iApply wp_free. iFrame.
  - iIntros "[%H K]". subst p. by iApply wp_ret.
Qed.
Lemma wp_body_clone h p x (Q : _ → oprop) : sees h (m_body p x) →
  own h ∗ (∀ q, own h -∗ M (m_body q (osl_body_clone x)) -∗ Q q) ⊢ wp (osl_body_clone_p p) Q.
Proof.
  unfold osl_body_clone_p. intros Hs. destruct x as [b|]; cbn [m_body osl_body_clone] in *.
  - apply sees_somewhere in Hs as [[i e] Hs]. apply sees_beside in Hs as [[Hp Hn]%sees_cell Hs]. apply sees_beside in Hs as [Hi He].
    rewrite (null_ne p Hn). iIntros "[H K]". iApply wp_bind. iApply wp_malloc. iIntros (q) "N". getown Hp.
    iApply wp_bind. iApply wp_strings_clone; [done|]. iFrame "H". iIntros (i') "H I". putp "N".
    iApply wp_bind. iApply wp_strings_clone; [done|]. iFrame "H". iIntros (e') "H E". putp "N". iApply wp_ret. iApply ("K" with "H").
    iExists (i', e'). cbn. iSplitL "N"; [done|]. iSplitL "I"; done.
  - apply sees_nothing in Hs as ->. cbn. iIntros "[H K]". iApply wp_ret. iApply ("K" with "H"). done.
Qed.

(** ** Extended bodies *)
Lemma m_ints_new a (l : list Z) n : n = List.length l → a ↦ CBlock (BInts (repeat None n)) ⊣⊢ a ↦ CBlock (BInts (fill l 0)).
Proof. intros ->. by rewrite fill_0. Qed.
Lemma m_ints_full a (l : list Z) n : n = List.length l → a ↦ CBlock (BInts (fill l n)) ⊢ M (m_ints a l).
Proof. intros ->. rewrite fill_all. apply m_ints_block. Qed.
Lemma wp_extbody_free p x (Q : _ → oprop) : M (m_extbody p x) ∗ Q tt ⊢ wp (osl_extbody_free_p p) Q.
Proof.
  unfold osl_extbody_free_p, m_extbody. iIntros "[(%w & S) K]". destruct w as [[s l] b]. iDestruct "S" as "(P & S & L & B)". rewrite M_cell.
  iDestruct (isnull_false with "P") as "[%Ep P]". rewrite Ep. get "P". iApply wp_bind. iApply wp_free_ints. iFrame "S".
  iApply wp_bind. iApply wp_free_ints. iFrame "L". iApply wp_bind. iApply wp_body_free. iFrame "B". iApply wp_free. iFrame.
Qed.
Lemma wp_extbody_clone h p x (Q : _ → oprop) : sees h (m_extbody p x) →
  own h ∗ (∀ q, own h -∗ M (m_extbody q (Extbody (eb_access x) (osl_body_clone (eb_body x)))) -∗ Q q) ⊢ wp (osl_extbody_clone_p p) Q.
Proof.
  unfold osl_extbody_clone_p, m_extbody. intros Hs. apply sees_somewhere in Hs as [[[s l] b] Hs]. apply sees_beside in Hs as [[Hp Hn]%sees_cell Hs].
  apply sees_beside in Hs as [Hs1 Hs]. apply sees_beside in Hs as [Hs2 Hs3]. rewrite (null_ne p Hn). iIntros "[H K]".
  iApply wp_bind. iApply wp_malloc. iIntros (q) "N". getown Hp. rewrite Nat2Z.id. set (n := List.length (eb_access x)) in *.
  assert (n = List.length (map fst (eb_access x)) ∧ n = List.length (map snd (eb_access x)))%type as [E1 E2] by (by rewrite !map_length).
  iApply wp_bind. iApply wp_malloc. iIntros (s') "S". iApply wp_bind. iApply wp_malloc. iIntros (l') "L". putp "N".
  iApply wp_bind.
  iApply (wp_pfor0 (λ j, own h ∗ s' ↦ CBlock (BInts (fill (map fst (eb_access x)) j)) ∗ l' ↦ CBlock (BInts (fill (map snd (eb_access x)) j)))%I).
  - intros j Hj. iIntros "(H & S & L)". destruct (lookup_ex (map fst (eb_access x)) j) as [a Ha]; [lia|]. destruct (lookup_ex (map snd (eb_access x)) j) as [c Hc]; [lia|].
    iApply wp_bind. iApply wp_read_int; [done..|]. iFrame "H". iIntros "H". iApply wp_bind. iApply wp_fill_int; [done|]. iFrame "S". iIntros "S".
    iApply wp_bind. iApply wp_read_int; [done..|]. iFrame "H". iIntros "H". iApply wp_fill_int; [done|]. iFrame "L". iIntros "L". iFrame.
  - iFrame "H". rewrite -!m_ints_new; [|done..]. iFrame "S L". iIntros "(H & S & L)". rewrite !m_ints_full; [|done..].
    iApply wp_bind. iApply wp_body_clone; [done|]. iFrame "H". iIntros (b') "H B". putp "N". iApply wp_ret. iApply ("K" with "H").
    iExists (s', l', b'). cbn. iSplitL "N"; [done|]. iSplitL "S"; [done|]. iSplitL "L"; done.
Qed.
Lemma grow_ints (l : list Z) x : <[List.length l := Some x]> (resize (map Some l) (List.length l + 1)) = map Some (l ++ [x]).
Proof.
  rewrite resize_more; [|rewrite map_length; lia]. rewrite map_length.
  replace (List.length l + 1 - _)%nat with 1%nat by lia. rewrite insert_app_r_alt; [|rewrite map_length; lia].
  rewrite map_length Nat.sub_diag map_app. done.
Qed.
Lemma wp_grow_ints a l n (Q : _ → oprop) : n = List.length l →
  M (m_ints a l) ∗ (∀ b, b ↦ CBlock (BInts (resize (map Some l) (n + 1))) -∗ Q b) ⊢ wp (realloc_ints a (n + 1)) Q.
Proof.
  intros ->. unfold m_ints, realloc_ints, isnull. destruct (a =? NULL) eqn:E.
  - iIntros "[%H K]". subst l. cbn. iApply wp_malloc. done.
  - rewrite M_cell. iIntros "[A K]". iApply (wp_bind (get_ints a)). iApply wp_bind. iApply wp_get_block. iFrame "A". iIntros "A". iApply wp_ret.
    iApply wp_bind. iApply wp_free. iFrame "A". by iApply wp_malloc.
Qed.
Lemma wp_push_int a l n x (Q : _ → oprop) : n = List.length l →
  a ↦ CBlock (BInts (resize (map Some l) (n + 1))) ∗ (M (m_ints a (l ++ [x])) -∗ Q tt) ⊢ wp (set_int a n x) Q.
Proof.
  intros ->. iIntros "[A K]". iApply (wp_set_int a (resize (map Some l) (List.length l + 1))).
  { rewrite resize_more; rewrite ?app_length ?map_length ?repeat_length; lia. }
  iFrame "A". iIntros "A". iApply "K". rewrite grow_ints. by iApply m_ints_block.
Qed.
Lemma wp_extbody_add p x start len (Q : _ → oprop) :
  M (m_extbody p x) ∗ (M (m_extbody p (Extbody (eb_access x ++ [(start, len)]) (eb_body x))) -∗ Q tt) ⊢ wp (osl_extbody_add_p p start len) Q.
Proof.
  unfold m_extbody. iIntros "[(%w & S) K]". destruct w as [[s l] b]. iDestruct "S" as "(P & S & L & B)". rewrite M_cell.
  set (n := List.length (eb_access x)) in *.
  assert (n = List.length (map fst (eb_access x)) ∧ n = List.length (map snd (eb_access x)))%type as [E1 E2] by (by rewrite !map_length).
  get "P". replace (Z.to_nat (Z.of_nat n + 1)) with (n + 1)%nat by lia. rewrite Nat2Z.id.
  iApply wp_bind. iApply (wp_grow_ints _ _ _ _ E1). iFrame "S". iIntros (s') "S". putp "P".
  iApply wp_bind. iApply (wp_grow_ints _ _ _ _ E2). iFrame "L". iIntros (l') "L". putp "P".
  iApply wp_bind. iApply (wp_push_int _ _ _ _ _ E1). iFrame "S". iIntros "S". iApply (wp_push_int _ _ _ _ _ E2). iFrame "L". iIntros "L".
  iApply "K". iExists (s', l', b). cbn [eb_access eb_body]. rewrite app_length !map_app. cbn [map fst snd List.length].
  replace (Z.of_nat n + 1) with (Z.of_nat (List.length (eb_access x) + 1)) by lia.
  iSplitL "P"; [done|]. iSplitL "S"; [done|]. iSplitL "L"; done.
Qed.

(** ** Tables of arrays *)
Lemma wp_free_table m ps l (f : ptr → oprog unit) (Q : _ → oprop) :
  (∀ p s (Q' : _ → oprop), M (m_str p s) ∗ Q' tt ⊢ wp (f p) Q') →
  M (m_table m ps l) ∗ Q tt ⊢ wp (pfor (List.length l) 0 (λ k, x <== ptr_at m k ;; f x) ;;== free m) Q.
Proof.
  intros Hf. unfold m_table. destruct (Z.eqb_spec m NULL) as [->|E].
  - cbn [Z.eqb NULL]. iIntros "[[%Hps S] K]". rewrite Hps. iDestruct (m_strs_length with "S") as "[%E S]". destruct l; [|done]. cbn [m_strs]. iDestruct "S" as "_".
    iApply wp_bind. iApply wp_ret. by iApply wp_free_null.
  - rewrite M_beside M_cell. iIntros "[[A S] K]". iApply wp_bind. iApply (wp_free_strs f m ps l); [done|]. iFrame "A S". iIntros "A". iApply wp_free. iFrame.
Qed.
Lemma wp_arrays_free p x (Q : _ → oprop) : M (m_arrays p x) ∗ Q tt ⊢ wp (osl_arrays_free_p p) Q.
Proof.
  unfold osl_arrays_free_p, m_arrays. iIntros "[(%w & S) K]". destruct w as [[i m] ps]. iDestruct "S" as "(P & I & N)". rewrite M_cell.
  iDestruct (isnull_false with "P") as "[%Ep P]". rewrite Ep. get "P". rewrite Nat2Z.id. iApply wp_bind. iApply wp_free_ints. iFrame "I".
  set (l := map (λ e, Some (snd e)) x) in *. assert (List.length x = List.length l) as -> by (by unfold l; rewrite map_length).
  iAssert (wp (pfor (List.length l) 0 (λ k, x <== ptr_at m k ;; free x) ;;== free m) (λ _, emp)) with "[N]" as "W".
  { iApply (wp_free_table m ps l free); [|by iFrame]. intros p' s Q'. apply wp_free_str. }
  iAssert (wp (free p) Q) with "[P K]" as "F". { iApply wp_free. iFrame. }
  iCombine "W F" as "W". iStopProof. clear.
  constructor. intros h (h1 & h2 & -> & Hd & H1 & H2) hf Hf.
  destruct (H1 (h2 ∪ hf)) as (a & h' & Ea & Hd' & ->); [solve_map_disjoint|]. rewrite left_id_L in Ea.
  destruct (H2 hf) as (a2 & h2' & E2 & Hd2 & HQ); [solve_map_disjoint|]. exists a2, h2'. rewrite -assoc_L. split; [|done].
  unfold pbind in *. destruct (pfor _ _ _ _) as [[[] h3]| | |]; try discriminate. by rewrite Ea.
Qed.
End R.
