(** * IrregHeapProofs: the irregular extension in memory *)
From stdpp Require Import gmap.
From iris.proofmode Require Import tactics.
From Coq Require Import ZifyBool ZifyNat.
From Verif Require Import Base IntModel VectorModel RelationModel RelSpec StringsModel ExtModel HeapModel HeapObjects HeapSpec HeapLogic HeapProofs PayloadModel PayloadSpec PayloadProofs PayloadProofs2 PayloadProofs3 PayloadProofs4 IrregModel IrregHeapModel IrregHeapSpec.
Local Open Scope string_scope.
Local Open Scope list_scope.
Local Open Scope Z_scope.
Local Open Scope bi_scope.

Section R.
Context {cfg : config} {al : Allocator obj}.

Lemma map_at {A B} (f : A → B) (l : list A) : ∀ i x, l !! i = Some x → List.map f l !! i = Some (f x).
Proof. induction l as [|y l IH]; intros [|i] x H; try discriminate; cbn in *; [by injection H as ->|by apply IH]. Qed.
(** *** Arrays of pointers *)
Lemma m_pointers_block p ps : p ↦ CBlock (BPtrs (map Some ps)) ⊢ M (m_pointers p ps).
Proof. iIntros "H". iDestruct (isnull_false with "H") as "[%E H]". unfold m_pointers. unfold isnull in E. rewrite E. done. Qed.
Lemma sees_pointers h a l i x : sees h (m_pointers a l) → l !! i = Some x → h !! a = Some (CBlock (BPtrs (map Some l))).
Proof.
  unfold m_pointers. destruct (a =? NULL).
  - intros ->%sees_nothing. done.
  - intros [H _]%sees_cell. done.
Qed.
Lemma wp_read_ptr h a l i x (Q : _ → oprop) : sees h (m_pointers a l) → l !! i = Some x →
  own h ∗ (own h -∗ Q x) ⊢ wp (ptr_at a i) Q.
Proof. intros H Hi. eapply wp_ptr_at_own; [by eapply sees_pointers|]. by apply map_Some_lookup. Qed.
Lemma wp_pointers_at a l i x (Q : _ → oprop) : l !! i = Some x →
  M (m_pointers a l) ∗ (M (m_pointers a l) -∗ Q x) ⊢ wp (ptr_at a i) Q.
Proof. intros Hi. apply (wp_reads _ _ x). intros h Q' Hs. by apply (wp_read_ptr h a l). Qed.
Lemma wp_ints_at a l i x (Q : _ → oprop) : l !! i = Some x →
  M (m_ints a l) ∗ (M (m_ints a l) -∗ Q x) ⊢ wp (int_at a i) Q.
Proof. intros Hi. apply (wp_reads _ _ x). intros h Q' Hs. by apply (wp_read_int h a l). Qed.
Lemma wp_free_pointers p l (Q : _ → oprop) : M (m_pointers p l) ∗ Q tt ⊢ wp (free_array p) Q.
Proof.
  unfold m_pointers, free_array, isnull. destruct (p =? NULL) eqn:E.
  - iIntros "[%H K]". by iApply wp_ret.
  - rewrite M_cell. apply wp_free.
Qed.
Lemma wp_free_numbers p l (Q : _ → oprop) : M (m_ints p l) ∗ Q tt ⊢ wp (free_array p) Q.
Proof. apply wp_free_if_ints. Qed.

(** *** Values one after the other *)
Lemma m_each_length {X} (m : ptr → X → mem) l : ∀ ps, M (m_each m ps l) ⊢ <affine> ⌜List.length ps = List.length l⌝ ∗ M (m_each m ps l).
Proof.
  induction l as [|s l IH]; intros [|p ps]; cbn [m_each].
  - iIntros "H". by iFrame.
  - by iIntros "%".
  - by iIntros "%".
  - iIntros "[A B]". iDestruct (IH with "B") as "[%E B]". iSplitR; [iPureIntro; cbn; lia|]. iSplitL "A"; done.
Qed.
Lemma m_each_snoc {X} (m : ptr → X → mem) l s q : ∀ ps, M (m_each m ps l) ∗ M (m q s) ⊢ M (m_each m (ps ++ [q]) (l ++ [s])).
Proof.
  induction l as [|s' l IH]; intros [|p ps]; cbn [m_each app].
  - iIntros "[A B]". iSplitL "B"; [done|]. done.
  - by iIntros "[%F ?]".
  - by iIntros "[%F ?]".
  - iIntros "[[A B] C]". iSplitL "A"; [done|]. iApply IH. iFrame.
Qed.
Lemma sees_each {X} (m : ptr → X → mem) h l s : ∀ ps i, sees h (m_each m ps l) → l !! i = Some s → (∃ p, ps !! i = Some p ∧ sees h (m p s))%type.
Proof.
  induction l as [|s' l IH]; intros [|p ps] [|i]; cbn [m_each]; try done; try by intros ?%sees_nothing.
  - intros [H _]%sees_beside [= ->]. by exists p.
  - intros [_ H]%sees_beside Hi. by apply (IH ps i).
Qed.
Lemma sees_each_length {X} (m : ptr → X → mem) h l : ∀ ps, sees h (m_each m ps l) → List.length ps = List.length l.
Proof.
  induction l as [|s l IH]; intros [|p ps]; cbn [m_each]; try by intros ?%sees_nothing.
  intros [_ H]%sees_beside. cbn. f_equal. by apply IH.
Qed.
(** Freeing them *)
Lemma wp_free_each {X} (m : ptr → X → mem) a ps l (Q : _ → oprop) :
  (∀ p x (Q' : _ → oprop), M (m p x) ∗ Q' tt ⊢ wp (free p) Q') →
  M (m_pointers a ps) ∗ M (m_each m ps l) ∗ (M (m_pointers a ps) -∗ Q tt) ⊢ wp (pfor (List.length l) 0 (λ i, q <== ptr_at a i ;; free q)) Q.
Proof.
  iIntros (Hf) "(A & S & K)". iDestruct (m_each_length with "S") as "[%E S]".
  iApply (wp_pfor0 (λ j, M (m_pointers a ps) ∗ M (m_each m (skipn j ps) (skipn j l)))%I).
  - intros j Hj. destruct (lookup_ex l j Hj) as [s Hl]. destruct (lookup_ex ps j) as [p Hp]; [lia|].
    rewrite (drop_S l s j Hl) (drop_S ps p j Hp). cbn [m_each].
    iIntros "(A & P & S)". iApply wp_bind. iApply wp_pointers_at; [done|]. iFrame "A". iIntros "A".
    iApply Hf. iFrame.
  - rewrite !skipn_O. iFrame "A S". iIntros "[A S]". rewrite -{1}E skipn_all skipn_all. cbn [m_each]. iDestruct "S" as "_". by iApply "K".
Qed.

(** *** The structure *)
Lemma wp_get_irregular p nc ne ni it bo ns np pr (Q : _ → oprop) : p ↦ CBlock (BIrregular nc ne ni it bo ns np pr) ∗
  (p ↦ CBlock (BIrregular nc ne ni it bo ns np pr) -∗ Q (INode nc ne ni it bo ns np pr)) ⊢ wp (get_irregular p) Q.
Proof. iIntros "[H K]". iApply wp_bind. iApply wp_get_block. iFrame "H". iIntros "H". iApply wp_ret. by iApply "K". Qed.
Lemma wp_get_irregular_own h p nc ne ni it bo ns np pr (Q : _ → oprop) : h !! p = Some (CBlock (BIrregular nc ne ni it bo ns np pr)) →
  own h ∗ (own h -∗ Q (INode nc ne ni it bo ns np pr)) ⊢ wp (get_irregular p) Q.
Proof. iIntros (E) "[H K]". iApply wp_bind. iApply wp_get_block_own; [done|]. iFrame "H". iIntros "H". iApply wp_ret. by iApply "K". Qed.

Lemma m_table_pointers t ps l : M (m_table t ps l) ⊣⊢ M (m_pointers t ps) ∗ M (m_strs ps l).
Proof. unfold m_table, m_pointers. by rewrite M_beside. Qed.
Lemma m_strs_each ps l : M (m_strs ps l) ⊣⊢ M (m_each m_str ps l).
Proof.
  revert ps. induction l as [|s l IH]; intros [|p ps]; cbn [m_strs m_each]; try done.
  by rewrite !M_beside IH.
Qed.
Lemma wp_irregular_free p x (Q : _ → oprop) : M (m_irregular p x) ∗ Q tt ⊢ wp (osl_irregular_free_p p) Q.
Proof.
  iIntros "[(%u & H) K]". destruct u as [[[[[[[ni it] bo] np] pr] ts] bs] qs]. iDestruct "H" as "(P & %Hn & Ni & It & Ts & Bo & Bs & Np & Pr & Qs)".
  destruct Hn as (Hc & He & Hn). rewrite M_cell. iDestruct (isnull_false with "P") as "[%E P]". unfold osl_irregular_free_p. rewrite E.
  iApply wp_bind. iApply wp_get_irregular. iFrame "P". iIntros "P". cbn [in_stmts in_preds in_control in_exit in_nbit in_iters in_body in_nbpred].
  iApply wp_bind. replace (Z.to_nat (count (ir_statements x))) with (List.length (ir_statements x)) by (unfold count; lia).
  iApply (wp_free_each m_ints pr qs); [intros; apply wp_free_ints|]. iFrame "Pr Qs". iIntros "Pr".
  iApply wp_bind. iApply wp_free_pointers. iFrame "Pr". iApply wp_bind.
  iDestruct (m_each_length with "Ts") as "[%Et Ts]". iDestruct (m_each_length with "Bs") as "[%Eb Bs]". rewrite !map_length in Et, Eb.
  rewrite -Hn. unfold count at 1. rewrite Nat2Z.id. set (L := ir_predicates x) in *.
  iApply (wp_pfor0 (λ j, M (m_ints ni (map (λ y, count (pd_iterators y)) L)) ∗ M (m_pointers it ts) ∗ M (m_pointers bo bs) ∗
    M (m_each m_iterators (skipn j ts) (map pd_iterators (skipn j L))) ∗ M (m_each m_str (skipn j bs) (map pd_body (skipn j L))))%I).
  - intros j Hj. destruct (lookup_ex L j Hj) as [y Hy]. destruct (lookup_ex ts j) as [t Ht]; [lia|]. destruct (lookup_ex bs j) as [b Hb]; [lia|].
    rewrite (drop_S L y j Hy) (drop_S ts t j Ht) (drop_S bs b j Hb). cbn [List.map m_each].
    iIntros "(Ni & It & Bo & [(%ps & T) Ts] & [B Bs])". iApply wp_bind.
    iApply (wp_ints_at ni _ j (count (pd_iterators y))); [by apply (map_at (λ y, count (pd_iterators y)) L j y)|]. iFrame "Ni". iIntros "Ni".
    iApply wp_bind. iApply (wp_pointers_at it ts); [done|]. iFrame "It". iIntros "It". iApply wp_bind.
    unfold count at 2. rewrite Nat2Z.id. rewrite m_table_pointers m_strs_each. iDestruct "T" as "[T S]".
    iApply (wp_free_each m_str t ps); [intros; apply wp_free_str|]. iFrame "T S". iIntros "T". iApply wp_bind.
    assert (∀ (Q' : _ → oprop), M (m_pointers t ps) ∗ Q' tt ⊢ wp (free t) Q') as Hft.
    { intros Q'. unfold m_pointers. destruct (Z.eqb_spec t NULL) as [->|En]; [iIntros "[%H K]"; by iApply wp_free_null|]. rewrite M_cell. apply wp_free. }
    iApply Hft. iFrame "T". iApply wp_bind. iApply (wp_pointers_at bo bs); [done|]. iFrame "Bo". iIntros "Bo". iApply wp_free_str. iFrame.
  - rewrite !skipn_O. iFrame "Ni It Bo Ts Bs". iIntros "(Ni & It & Bo & Ts & Bs)". rewrite -{1}Et -{2}Eb !skipn_all. cbn [List.map m_each].
    iDestruct "Ts" as "_". iDestruct "Bs" as "_".
    iApply wp_bind. iApply wp_free_pointers. iFrame "It". iApply wp_bind. iApply wp_free_numbers. iFrame "Ni".
    iApply wp_bind. iApply wp_free_pointers. iFrame "Bo". iApply wp_bind. iApply wp_free_numbers. iFrame "Np". iApply wp_free. iFrame.
Qed.

(** *** Filling the arrays of a new structure *)
Lemma wp_push_num b (l : list Z) z r y (Q : _ → oprop) :
  b ↦ CBlock (BInts (map Some l ++ z :: r)) ∗ (b ↦ CBlock (BInts (map Some (l ++ [y]) ++ r)) -∗ Q tt) ⊢ wp (set_int b (List.length l) y) Q.
Proof.
  iIntros "[B K]". iApply wp_set_int; [|iFrame "B"; iIntros "B"; iApply "K"].
  - rewrite app_length map_length. cbn. lia.
  - rewrite insert_app_r_alt; [|rewrite map_length; lia]. rewrite map_length Nat.sub_diag. cbn. by rewrite map_app -app_assoc.
Qed.
Definition lens (l : list predicate) : list Z := List.map (λ y, count (pd_iterators y)) l.
Definition filled (ni it bo : ptr) (l : list predicate) (room : nat) : oprop :=
  ∃ ts bs, <affine> ⌜(List.length ts = List.length l ∧ List.length bs = List.length l)%type⌝ ∗
    ni ↦ CBlock (BInts (map Some (lens l) ++ repeat None room)) ∗
    it ↦ CBlock (BPtrs (map Some ts ++ repeat None room)) ∗ M (m_each m_iterators ts (List.map pd_iterators l)) ∗
    bo ↦ CBlock (BPtrs (map Some bs ++ repeat None room)) ∗ M (m_each m_str bs (List.map pd_body l)).
(** The arrays of the old structure. *)
Definition preds_in (h : heap obj) (x : irr_node) (l : list predicate) : Prop :=
  (∃ ts bs, sees h (m_ints (in_nbit x) (lens l)) ∧ sees h (m_pointers (in_iters x) ts) ∧ sees h (m_each m_iterators ts (List.map pd_iterators l)) ∧
    sees h (m_pointers (in_body x) bs) ∧ sees h (m_each m_str bs (List.map pd_body l)))%type.
Lemma m_iterators_block t ps l : t ↦ CBlock (BPtrs (map Some ps)) ∗ M (m_strs ps l) ⊢ M (m_iterators t l).
Proof. rewrite m_table_block. iIntros "H". iExists ps. done. Qed.
Lemma wp_copy_predicate h x l j y ni it bo d room (Q : _ → oprop) : preds_in h x l → l !! j = Some y →
  own h ∗ filled ni it bo d (S room) ∗ (own h -∗ filled ni it bo (d ++ [y]) room -∗ Q tt) ⊢ wp (copy_predicate_p x j ni it bo (List.length d)) Q.
Proof.
  iIntros ((ts & bs & S1 & S2 & S3 & S4 & S5) Hj) "(H & (%us & %cs & (%Hu & %Hv) & Ni & It & Ts & Bo & Bs) & K)".
  destruct (sees_each _ h _ (pd_iterators y) ts j S3) as (t & Ht & St); [by apply map_at|].
  destruct (sees_each _ h _ (pd_body y) bs j S5) as (b & Hb & Sb); [by apply map_at|].
  unfold copy_predicate_p. iApply wp_bind. iApply (wp_read_int h _ _ j (count (pd_iterators y))); [done|by apply (map_at (λ y, count (pd_iterators y)))|].
  iFrame "H". iIntros "H". iApply wp_bind. cbn [repeat]. replace (List.length d) with (List.length (lens d)) at 1 by apply map_length.
  iApply wp_push_num. iFrame "Ni". iIntros "Ni". iApply wp_bind. iApply wp_read_ptr; [done..|]. iFrame "H". iIntros "H".
  iApply wp_bind. iApply wp_OSL_strdup; [done|]. iFrame "H". iIntros (c) "H C". iApply wp_bind. rewrite -{1}Hv. iApply wp_push_ptr. iFrame "Bo". iIntros "Bo".
  iApply wp_bind. iApply wp_malloc. iIntros (u) "U". iApply wp_bind. rewrite -{1}Hu. iApply wp_push_ptr. iFrame "It". iIntros "It".
  unfold count. rewrite Nat2Z.id. apply sees_somewhere in St as (ps & St). apply sees_beside in St as [Sp Sq].
  iApply (wp_copy_strs _ h ps _ u []); [done| |].
  - intros i q Q' Hi. iIntros "[H K]". iApply wp_bind. iApply wp_read_ptr; [done..|]. iFrame "H". iIntros "H". iApply wp_bind.
    iApply (wp_read_ptr h t ps); [done..|]. iFrame "H". done.
  - rewrite app_nil_r. iFrame "H U". iIntros (qs) "H U S". rewrite app_nil_r. iApply ("K" with "H").
    iExists (us ++ [u]), (cs ++ [c]). rewrite !app_length Hu Hv. iSplitR; [done|].
    unfold lens. rewrite !map_app. cbn [List.map]. iFrame "Ni It Bo". iSplitL "Ts U S".
    + iApply m_each_snoc. iFrame "Ts". iApply m_iterators_block. iFrame.
    + iApply m_each_snoc. iFrame.
Qed.
Lemma wp_new_predicate h a its body s ni it bo d room (Q : _ → oprop) : sees h (m_iterators a (List.map Some its)) → sees h (m_str body (Some s)) →
  own h ∗ filled ni it bo d (S room) ∗ (own h -∗ filled ni it bo (d ++ [Predicate (List.map Some its) (Some s)]) room -∗ Q tt)
  ⊢ wp (new_predicate_p a (count its) body ni it bo (List.length d)) Q.
Proof.
  iIntros (Sa Sb) "(H & (%us & %cs & (%Hu & %Hv) & Ni & It & Ts & Bo & Bs) & K)".
  unfold new_predicate_p. iApply wp_bind. iApply wp_malloc. iIntros (u) "U". iApply wp_bind. cbn [repeat]. rewrite -{1}Hu. iApply wp_push_ptr. iFrame "It". iIntros "It".
  iApply wp_bind. unfold copy_strings_p, count. rewrite Nat2Z.id. apply sees_somewhere in Sa as (ps & Sa). apply sees_beside in Sa as [Sp Sq].
  replace (List.length its) with (List.length (List.map Some its)) by apply map_length.
  iApply (wp_copy_strs _ h ps _ u []); [done| |].
  - intros i q Q' Hi. iIntros "[H K]". iApply wp_bind. iApply (wp_read_ptr h a ps); [done..|]. iFrame "H". done.
  - rewrite app_nil_r. iFrame "H U". iIntros (qs) "H U S". rewrite app_nil_r. iApply wp_bind.
    replace (List.length d) with (List.length (lens d)) at 1 by apply map_length. iApply wp_push_num. iFrame "Ni". iIntros "Ni".
    iApply wp_bind. iApply (wp_OSL_strdup h body (Some s)); [done|]. iFrame "H". iIntros (c) "H C". rewrite -{1}Hv. iApply wp_push_ptr. iFrame "Bo". iIntros "Bo".
    iApply ("K" with "H"). iExists (us ++ [u]), (cs ++ [c]). rewrite !app_length Hu Hv. iSplitR; [done|].
    unfold lens. rewrite !map_app. cbn [List.map pd_iterators pd_body]. iFrame "It Bo". unfold count. iFrame "Ni". iSplitL "Ts U S".
    + iApply m_each_snoc. iFrame "Ts". iApply m_iterators_block. iFrame.
    + iApply m_each_snoc. iFrame.
Qed.
(** A run of predicates. *)
Lemma pfor_ext (f g : nat → oprog unit) : (∀ i, f i = g i) → ∀ k i, pfor k i f = pfor k i g.
Proof. intros H k. induction k as [|k IH]; intros i; cbn [pfor]; [done|]. by rewrite H IH. Qed.
Lemma wp_copy_predicates h x l ni it bo s : preds_in h x l → ∀ k d room (Q : _ → oprop),
  (s ≤ List.length d)%nat → (List.length d - s + k ≤ List.length l)%nat →
  own h ∗ filled ni it bo d (k + room) ∗ (own h -∗ filled ni it bo (d ++ firstn k (skipn (List.length d - s) l)) room -∗ Q tt)
  ⊢ wp (pfor k (List.length d) (λ i, copy_predicate_p x (i - s) ni it bo i)) Q.
Proof.
  intros Hp. induction k as [|k IH]; intros d room Q Hs Hk; cbn [pfor].
  - cbn [firstn Nat.add]. rewrite app_nil_r. iIntros "(H & F & K)". iApply wp_ret. iApply ("K" with "H F").
  - destruct (lookup_ex l (List.length d - s)) as [y Hy]; [lia|]. iIntros "(H & F & K)". iApply wp_bind.
    iApply (wp_copy_predicate h x l (List.length d - s) y); [done..|]. cbn [Nat.add]. iFrame "H F". iIntros "H F".
    specialize (IH (d ++ [y]) room Q). rewrite app_length Nat.add_1_r in IH. iApply IH; [lia|lia|].
    iFrame "H F". iIntros "H F". iApply ("K" with "H"). rewrite (drop_S l y _ Hy). cbn [firstn]. rewrite -app_assoc.
    replace (S (List.length d) - s)%nat with (S (List.length d - s)) by lia. done.
Qed.
Lemma wp_copy_first h x l ni it bo k room (Q : _ → oprop) : preds_in h x l → (k ≤ List.length l)%nat →
  own h ∗ filled ni it bo [] (k + room) ∗ (own h -∗ filled ni it bo (firstn k l) room -∗ Q tt)
  ⊢ wp (pfor k 0 (λ i, copy_predicate_p x i ni it bo i)) Q.
Proof.
  intros Hp Hk. rewrite (pfor_ext _ (λ i, copy_predicate_p x (i - 0) ni it bo i)); [|intros i; by rewrite Nat.sub_0_r].
  apply (wp_copy_predicates h x l ni it bo 0 Hp k [] room Q); cbn; lia.
Qed.

(** The statements *)
Definition filled_stmts (np pr : ptr) (l : list (list Z)) (room : nat) : oprop :=
  ∃ qs, <affine> ⌜List.length qs = List.length l⌝ ∗ np ↦ CBlock (BInts (map Some (List.map count l) ++ repeat None room)) ∗
    pr ↦ CBlock (BPtrs (map Some qs ++ repeat None room)) ∗ M (m_each m_ints qs l).
Definition stmts_in (h : heap obj) (x : irr_node) (l : list (list Z)) : Prop :=
  (∃ qs, sees h (m_ints (in_nbpred x) (List.map count l)) ∧ sees h (m_pointers (in_preds x) qs) ∧ sees h (m_each m_ints qs l))%type.
Lemma wp_copy_row h x l j y q (Q : _ → oprop) : stmts_in h x l → l !! j = Some y →
  own h ∗ q ↦ CBlock (BInts (repeat None (List.length y))) ∗ (own h -∗ M (m_ints q y) -∗ Q tt)
  ⊢ wp (pfor (List.length y) 0 (λ k, s <== ptr_at (in_preds x) j ;; v <== int_at s k ;; set_int q k v)) Q.
Proof.
  iIntros ((qs & S1 & S2 & S3) Hj) "(H & A & K)". destruct (sees_each _ h _ y qs j S3 Hj) as (t & Ht & St).
  iApply (wp_pfor0 (λ k, own h ∗ q ↦ CBlock (BInts (fill y k)))%I).
  - intros k Hk. destruct (lookup_ex y k Hk) as [v Hv]. iIntros "[H A]". iApply wp_bind. iApply wp_read_ptr; [done..|]. iFrame "H". iIntros "H".
    iApply wp_bind. iApply wp_read_int; [done..|]. iFrame "H". iIntros "H". iApply wp_fill_int; [done|]. iFrame "A". iIntros "A". iFrame.
  - rewrite fill_0 fill_all. iFrame "H A". iIntros "[H A]". iApply ("K" with "H"). by iApply m_ints_block.
Qed.
Lemma wp_copy_statement h x l j y np pr d room (Q : _ → oprop) : stmts_in h x l → l !! j = Some y → j = List.length d →
  own h ∗ filled_stmts np pr d (S room) ∗ (own h -∗ filled_stmts np pr (d ++ [y]) room -∗ Q tt) ⊢ wp (copy_statement_p x np pr j) Q.
Proof.
  iIntros (Hs Hj Ej) "(H & (%us & %Hu & Np & Pr & Qs) & K)". pose proof Hs as (qs & S1 & S2 & S3).
  unfold copy_statement_p. iApply wp_bind. iApply (wp_read_int h _ _ j (count y)); [done|by apply map_at|]. iFrame "H". iIntros "H".
  iApply wp_bind. iApply wp_malloc. iIntros (q) "U". iApply wp_bind. cbn [repeat]. rewrite {1}Ej -{1}Hu. iApply wp_push_ptr. iFrame "Pr". iIntros "Pr".
  iApply wp_bind. rewrite {1}Ej. replace (List.length d) with (List.length (List.map count d)) at 1 by apply map_length. iApply wp_push_num. iFrame "Np". iIntros "Np".
  unfold count at 1 2. rewrite Nat2Z.id. iApply (wp_copy_row h x l j y q); [done..|]. iFrame "H U". iIntros "H U". iApply ("K" with "H").
  iExists (us ++ [q]). rewrite !app_length Hu. iSplitR; [done|]. rewrite !map_app. cbn [List.map]. iFrame "Np Pr". iApply m_each_snoc. iFrame.
Qed.
Lemma wp_clone_statement h x l j y np pr d room (Q : _ → oprop) : stmts_in h x l → l !! j = Some y → j = List.length d →
  own h ∗ filled_stmts np pr d (S room) ∗ (own h -∗ filled_stmts np pr (d ++ [y]) room -∗ Q tt) ⊢ wp (clone_statement_p x np pr j) Q.
Proof.
  iIntros (Hs Hj Ej) "(H & (%us & %Hu & Np & Pr & Qs) & K)". pose proof Hs as (qs & S1 & S2 & S3).
  unfold clone_statement_p. iApply wp_bind. iApply (wp_read_int h _ _ j (count y)); [done|by apply map_at|]. iFrame "H". iIntros "H".
  iApply wp_bind. cbn [repeat]. rewrite {1}Ej. replace (List.length d) with (List.length (List.map count d)) at 1 by apply map_length. iApply wp_push_num. iFrame "Np". iIntros "Np".
  iApply wp_bind. iApply wp_malloc. iIntros (q) "U". iApply wp_bind. rewrite {1}Ej -{1}Hu. iApply wp_push_ptr. iFrame "Pr". iIntros "Pr".
  unfold count at 1 2. rewrite Nat2Z.id. iApply (wp_copy_row h x l j y q); [done..|]. iFrame "H U". iIntros "H U". iApply ("K" with "H").
  iExists (us ++ [q]). rewrite !app_length Hu. iSplitR; [done|]. rewrite !map_app. cbn [List.map]. iFrame "Np Pr". iApply m_each_snoc. iFrame.
Qed.
Lemma wp_each_statement (f : irr_node → ptr → ptr → nat → oprog unit) h x l np pr room (Q : _ → oprop) :
  (∀ j y d room (Q : _ → oprop), stmts_in h x l → l !! j = Some y → j = List.length d →
     own h ∗ filled_stmts np pr d (S room) ∗ (own h -∗ filled_stmts np pr (d ++ [y]) room -∗ Q tt) ⊢ wp (f x np pr j) Q) →
  stmts_in h x l → own h ∗ filled_stmts np pr [] (List.length l + room) ∗ (own h -∗ filled_stmts np pr l room -∗ Q tt)
  ⊢ wp (pfor (List.length l) 0 (λ i, f x np pr i)) Q.
Proof.
  iIntros (Hf Hs) "(H & F & K)".
  iApply (wp_pfor0 (λ j, own h ∗ filled_stmts np pr (firstn j l) (List.length l - j + room))%I).
  - intros j Hj. destruct (lookup_ex l j Hj) as [y Hy]. iIntros "[H F]".
    replace (List.length l - j + room)%nat with (S (List.length l - S j + room)) by lia.
    iApply (Hf j y (firstn j l) (List.length l - S j + room)%nat); [done..|rewrite firstn_length; lia|]. iFrame "H F". iIntros "H F". iFrame "H".
    by rewrite (take_S_r l j y Hy).
  - rewrite Nat.sub_0_r firstn_all Nat.sub_diag. iFrame "H F". iIntros "[H F]". iApply ("K" with "H F").
Qed.

(** *** The functions *)
Lemma sees_irregular h p x : sees h (m_irregular p x) → (∃ nd,
  h !! p = Some (CBlock (BIrregular (ir_control x) (ir_exit x) (in_nbit nd) (in_iters nd) (in_body nd) (count (ir_statements x)) (in_nbpred nd) (in_preds nd))) ∧ p ≠ NULL ∧
  nd = INode (ir_control x) (ir_exit x) (in_nbit nd) (in_iters nd) (in_body nd) (count (ir_statements x)) (in_nbpred nd) (in_preds nd) ∧
  preds_in h nd (ir_predicates x) ∧ stmts_in h nd (ir_statements x) ∧
  0 ≤ ir_control x ∧ 0 ≤ ir_exit x ∧ count (ir_predicates x) = (ir_control x + ir_exit x)%Z)%type.
Proof.
  intros (u & H)%sees_somewhere. destruct u as [[[[[[[ni it] bo] np] pr] ts] bs] qs].
  apply sees_beside in H as [H1 H]. apply sees_beside in H as [Hn H]. apply sees_beside in H as [H2 H]. apply sees_beside in H as [H3 H].
  apply sees_beside in H as [H4 H]. apply sees_beside in H as [H5 H]. apply sees_beside in H as [H6 H]. apply sees_beside in H as [H7 H].
  apply sees_beside in H as [H8 H9]. apply sees_cell in H1 as [H1 Hp]. apply sees_nothing in Hn as (Hc & He & Hn).
  exists (INode (ir_control x) (ir_exit x) ni it bo (count (ir_statements x)) np pr). cbn [in_nbit in_iters in_body in_nbpred in_preds].
  split_and!; try done; unfold preds_in, stmts_in; cbn [in_nbit in_iters in_body in_nbpred in_preds]; eauto 10.
Qed.
Lemma filled_new ni it bo n : ni ↦ CBlock (BInts (repeat None n)) ∗ it ↦ CBlock (BPtrs (repeat None n)) ∗ bo ↦ CBlock (BPtrs (repeat None n)) ⊢ filled ni it bo [] n.
Proof. iIntros "(A & B & C)". iExists [], []. cbn. iFrame. iSplitR; [done|]. done. Qed.
Lemma filled_stmts_new np pr n : np ↦ CBlock (BInts (repeat None n)) ∗ pr ↦ CBlock (BPtrs (repeat None n)) ⊢ filled_stmts np pr [] n.
Proof. iIntros "(A & B)". iExists []. cbn. iFrame. by iSplitR. Qed.
Lemma irregular_intro p x ni it bo np pr : (0 ≤ ir_control x ∧ 0 ≤ ir_exit x ∧ count (ir_predicates x) = (ir_control x + ir_exit x)%Z)%type →
  p ↦ CBlock (BIrregular (ir_control x) (ir_exit x) ni it bo (count (ir_statements x)) np pr) ∗
  filled ni it bo (ir_predicates x) 0 ∗ filled_stmts np pr (ir_statements x) 0 ⊢ M (m_irregular p x).
Proof.
  iIntros (Hn) "(P & (%ts & %bs & _ & Ni & It & Ts & Bo & Bs) & (%qs & _ & Np & Pr & Qs))". cbn [repeat]. rewrite !app_nil_r.
  iExists (ni, it, bo, np, pr, ts, bs, qs). rewrite !M_beside M_cell. iFrame "P Ts Bs Qs". iSplitR; [done|].
  iSplitL "Ni"; [by iApply m_ints_block|]. iSplitL "It"; [by iApply m_pointers_block|]. iSplitL "Bo"; [by iApply m_pointers_block|].
  iSplitL "Np"; [by iApply m_ints_block|by iApply m_pointers_block].
Qed.
Lemma wp_irregular_add_control h p x a its b s (Q : _ → oprop) :
  sees h (m_irregular p x) → sees h (m_iterators a (List.map Some its)) → sees h (m_str b (Some s)) →
  own h ∗ (∀ q, own h -∗ M (m_irregular q (with_control x its s)) -∗ Q q) ⊢ wp (osl_irregular_add_control_p p a (count its) b) Q.
Proof.
  iIntros (Sx Sa Sb) "[H K]". destruct (sees_irregular h p x Sx) as (nd & E & Hp & En & Hpr & Hst & Hc & He & Hn).
  unfold osl_irregular_add_control_p. iApply wp_bind. iApply wp_malloc. iIntros (q) "P". iApply wp_bind. iApply wp_get_irregular_own; [done|]. iFrame "H". iIntros "H".
  rewrite -En. replace (in_control nd) with (ir_control x) by by rewrite En. replace (in_exit nd) with (ir_exit x) by by rewrite En. replace (in_stmts nd) with (count (ir_statements x)) by by rewrite En.
  iApply wp_bind. iApply wp_malloc. iIntros (it) "It". iApply wp_bind. iApply wp_malloc. iIntros (ni) "Ni". iApply wp_bind. iApply wp_malloc. iIntros (bo) "Bo".
  iApply wp_bind. set (c := Z.to_nat (ir_control x)). set (e := Z.to_nat (ir_exit x)).
  assert (List.length (ir_predicates x) = c + e)%nat as HL by (unfold count in Hn; lia).
  replace (Z.to_nat (ir_control x + 1 + ir_exit x)) with (c + S e)%nat by lia.
  iDestruct (filled_new with "[$Ni $It $Bo]") as "F".
  iApply (wp_copy_first h nd (ir_predicates x) ni it bo c (S e)); [done|lia|]. iFrame "H F". iIntros "H F".
  iApply wp_bind. assert (c = List.length (firstn c (ir_predicates x))) as Ec by (rewrite firstn_length; lia). rewrite {2}Ec.
  iApply (wp_new_predicate h a its b s); [done..|]. iFrame "H F". iIntros "H F". iApply wp_bind.
  replace (Z.to_nat (ir_control x + 1 + ir_exit x - (ir_control x + 1))) with e by lia.
  set (d := firstn c (ir_predicates x) ++ [Predicate (List.map Some its) (Some s)]).
  assert (Z.to_nat (ir_control x + 1) = List.length d) as Ed by (unfold d; rewrite app_length -Ec; cbn; lia). rewrite Ed.
  assert (List.length d = S c) as Ed' by lia.
  iApply (wp_copy_predicates h nd (ir_predicates x) ni it bo 1 Hpr e d 0); [lia|lia|]. rewrite Nat.add_0_r. iFrame "H F". iIntros "H F".
  iApply wp_bind. iApply wp_malloc. iIntros (np) "Np". iApply wp_bind. iApply wp_malloc. iIntros (pr) "Pr". iApply wp_bind.
  iDestruct (filled_stmts_new with "[$Np $Pr]") as "G". unfold count at 1 2. rewrite !Nat2Z.id.
  iApply (wp_each_statement copy_statement_p h nd (ir_statements x) np pr 0); [intros; by eapply wp_copy_statement|done|].
  rewrite Nat.add_0_r. iFrame "H G". iIntros "H G". iApply wp_bind. iApply wp_put. iFrame "P". iIntros "P". iApply wp_ret. iApply ("K" with "H").
  iApply irregular_intro; [|iFrame "P G"].
  - unfold with_control. cbn [ir_control ir_exit ir_predicates]. split_and!; [lia..|]. unfold count. rewrite app_length. cbn [List.length]. rewrite firstn_length skipn_length. fold c. lia.
  - unfold with_control. cbn [ir_predicates]. rewrite Ed'. replace (S c - 1)%nat with c by lia.
    rewrite (firstn_all2 (skipn c (ir_predicates x))); [|rewrite skipn_length; lia]. unfold d. rewrite -app_assoc. done.
Qed.
Lemma wp_irregular_add_exit h p x a its b s (Q : _ → oprop) :
  sees h (m_irregular p x) → sees h (m_iterators a (List.map Some its)) → sees h (m_str b (Some s)) →
  own h ∗ (∀ q, own h -∗ M (m_irregular q (with_exit x its s)) -∗ Q q) ⊢ wp (osl_irregular_add_exit_p p a (count its) b) Q.
Proof.
  iIntros (Sx Sa Sb) "[H K]". destruct (sees_irregular h p x Sx) as (nd & E & Hp & En & Hpr & Hst & Hc & He & Hn).
  unfold osl_irregular_add_exit_p. iApply wp_bind. iApply wp_malloc. iIntros (q) "P". iApply wp_bind. iApply wp_get_irregular_own; [done|]. iFrame "H". iIntros "H".
  rewrite -En. replace (in_control nd) with (ir_control x) by by rewrite En. replace (in_exit nd) with (ir_exit x) by by rewrite En. replace (in_stmts nd) with (count (ir_statements x)) by by rewrite En.
  iApply wp_bind. iApply wp_malloc. iIntros (it) "It". iApply wp_bind. iApply wp_malloc. iIntros (ni) "Ni". iApply wp_bind. iApply wp_malloc. iIntros (bo) "Bo".
  iApply wp_bind. set (L := List.length (ir_predicates x)). unfold count in Hn. fold L in Hn.
  replace (Z.to_nat (ir_control x + (ir_exit x + 1))) with (L + 1)%nat by lia. replace (Z.to_nat (ir_control x + (ir_exit x + 1) - 1)) with L by lia.
  iDestruct (filled_new with "[$Ni $It $Bo]") as "F".
  iApply (wp_copy_first h nd (ir_predicates x) ni it bo L 1); [done|lia|]. iFrame "H F". iIntros "H F". unfold L at 2. rewrite firstn_all.
  iApply wp_bind. unfold L. iApply (wp_new_predicate h a its b s); [done..|]. iFrame "H F". iIntros "H F". iApply wp_bind.
  iApply wp_malloc. iIntros (np) "Np". iApply wp_bind. iApply wp_malloc. iIntros (pr) "Pr". iApply wp_bind.
  iDestruct (filled_stmts_new with "[$Np $Pr]") as "G". unfold count at 1 2. rewrite !Nat2Z.id.
  iApply (wp_each_statement copy_statement_p h nd (ir_statements x) np pr 0); [intros; by eapply wp_copy_statement|done|].
  rewrite Nat.add_0_r. iFrame "H G". iIntros "H G". iApply wp_bind. iApply wp_put. iFrame "P". iIntros "P". iApply wp_ret. iApply ("K" with "H").
  iApply irregular_intro; [|iFrame "P G F"].
  unfold with_exit. cbn [ir_control ir_exit ir_predicates]. split_and!; [lia..|]. unfold count. rewrite app_length. cbn [List.length]. lia.
Qed.
Lemma wp_irregular_add_predicates h p x a l (Q : _ → oprop) :
  sees h (m_irregular p x) → sees h (m_ints a l) →
  own h ∗ (∀ q, own h -∗ M (m_irregular q (with_statement x l)) -∗ Q q) ⊢ wp (osl_irregular_add_predicates_p p a (count l)) Q.
Proof.
  iIntros (Sx Sa) "[H K]". destruct (sees_irregular h p x Sx) as (nd & E & Hp & En & Hpr & Hst & Hc & He & Hn).
  unfold osl_irregular_add_predicates_p. iApply wp_bind. iApply wp_malloc. iIntros (q) "P". iApply wp_bind. iApply wp_get_irregular_own; [done|]. iFrame "H". iIntros "H".
  rewrite -En. replace (in_control nd) with (ir_control x) by by rewrite En. replace (in_exit nd) with (ir_exit x) by by rewrite En. replace (in_stmts nd) with (count (ir_statements x)) by by rewrite En.
  iApply wp_bind. iApply wp_malloc. iIntros (it) "It". iApply wp_bind. iApply wp_malloc. iIntros (ni) "Ni". iApply wp_bind. iApply wp_malloc. iIntros (bo) "Bo".
  iApply wp_bind. set (L := List.length (ir_predicates x)). pose proof Hn as Hn'. unfold count in Hn'. fold L in Hn'.
  replace (Z.to_nat (ir_control x + ir_exit x)) with L by lia. iDestruct (filled_new with "[$Ni $It $Bo]") as "F".
  iApply (wp_copy_first h nd (ir_predicates x) ni it bo L 0); [done|lia|]. rewrite Nat.add_0_r. iFrame "H F". iIntros "H F". unfold L at 1. rewrite firstn_all.
  iApply wp_bind. iApply wp_malloc. iIntros (np) "Np". iApply wp_bind. iApply wp_malloc. iIntros (pr) "Pr". iApply wp_bind.
  set (n := List.length (ir_statements x)). replace (Z.to_nat (count (ir_statements x) + 1)) with (n + 1)%nat by (unfold count; lia).
  replace (Z.to_nat (count (ir_statements x))) with n by (unfold count; lia). iDestruct (filled_stmts_new with "[$Np $Pr]") as "G".
  iApply (wp_each_statement copy_statement_p h nd (ir_statements x) np pr 1); [intros; by eapply wp_copy_statement|done|].
  iFrame "H G". iIntros "H (%qs & %Hq & Np & Pr & Qs)". iApply wp_bind. iApply wp_malloc. iIntros (w) "W". iApply wp_bind. cbn [repeat].
  fold n in Hq. rewrite -{1}Hq. iApply wp_push_ptr. iFrame "Pr". iIntros "Pr". iApply wp_bind. unfold count at 1 2. rewrite Nat2Z.id.
  iApply (wp_copy_ints h a l w); [done|]. iFrame "H W". iIntros "H W". iApply wp_bind.
  replace n with (List.length (List.map count (ir_statements x))) by apply map_length. iApply wp_push_num. iFrame "Np". iIntros "Np".
  iApply wp_bind. iApply wp_put. iFrame "P". iIntros "P". iApply wp_ret. iApply ("K" with "H").
  iApply irregular_intro; [|iFrame "F"].
  - unfold with_statement. cbn [ir_control ir_exit ir_predicates]. split_and!; lia.
  - unfold with_statement. cbn [ir_statements ir_control ir_exit in_control in_exit in_nbit in_iters in_body in_stmts in_nbpred in_preds].
    replace (count (ir_statements x ++ [l])) with (count (ir_statements x) + 1)%Z by (unfold count; rewrite app_length; cbn; lia). iFrame "P".
    iExists (qs ++ [w]). rewrite !app_length Hq. iSplitR; [done|]. rewrite (map_app count). cbn [List.map repeat]. iFrame "Np Pr". iApply m_each_snoc. iFrame.
Qed.
Lemma wp_irregular_clone h p x (Q : _ → oprop) : sees h (m_irregular p x) → ir_predicates x = [] →
  own h ∗ (∀ q, own h -∗ M (m_irregular q x) -∗ Q q) ⊢ wp (osl_irregular_clone_p p) Q.
Proof.
  iIntros (Sx H0) "[H K]". destruct (sees_irregular h p x Sx) as (nd & E & Hp & En & Hpr & Hst & Hc & He & Hn).
  unfold osl_irregular_clone_p. rewrite null_ne; [|done]. iApply wp_bind. iApply wp_malloc. iIntros (q) "P". iApply wp_bind. iApply wp_get_irregular_own; [done|]. iFrame "H". iIntros "H".
  rewrite -En. replace (in_control nd) with (ir_control x) by by rewrite En. replace (in_exit nd) with (ir_exit x) by by rewrite En. replace (in_stmts nd) with (count (ir_statements x)) by by rewrite En.
  iApply wp_bind. iApply wp_malloc. iIntros (np) "Np". iApply wp_bind. iApply wp_malloc. iIntros (pr) "Pr". iApply wp_bind.
  iDestruct (filled_stmts_new with "[$Np $Pr]") as "G". unfold count at 1 2. rewrite !Nat2Z.id.
  iApply (wp_each_statement clone_statement_p h nd (ir_statements x) np pr 0); [intros; by eapply wp_clone_statement|done|].
  rewrite Nat.add_0_r. iFrame "H G". iIntros "H G". rewrite -Hn H0. iApply wp_bind. iApply wp_malloc. iIntros (ni) "Ni". iApply wp_bind. iApply wp_malloc. iIntros (it) "It". iApply wp_bind. iApply wp_malloc. iIntros (bo) "Bo".
  iApply wp_bind. cbn [count List.length Z.of_nat Z.to_nat pfor]. iApply wp_ret. iApply wp_bind. iApply wp_put. iFrame "P". iIntros "P". iApply wp_ret. iApply ("K" with "H").
  iDestruct (filled_new with "[$Ni $It $Bo]") as "F".
  iApply irregular_intro; [done|]. rewrite H0. iFrame.
Qed.

(** *** Programs with undefined behaviour *)
Definition wpu {A} (c : oprog A) : oprop := {| hholds h := (∀ hf, h ##ₘ hf → c (h ∪ hf) = UB)%type |}.
Lemma wpu_lift {A} P : P ⊢ wpu (lift (A:=A) UB).
Proof. constructor. done. Qed.
Lemma wpu_bind_l {A B} (c : oprog A) (f : A → oprog B) : wpu c ⊢ wpu (pbind c f).
Proof. constructor. intros h H hf Hd. unfold pbind. by rewrite (H hf Hd). Qed.
Lemma wpu_bind {A B} (c : oprog A) (f : A → oprog B) : wp c (λ a, wpu (f a)) ⊢ wpu (pbind c f).
Proof. constructor. intros h H hf Hd. destruct (H hf Hd) as (a & h' & E & Hd' & H'). unfold pbind. rewrite E. by apply H'. Qed.
Lemma wpu_frame {A} (c : oprog A) R : wpu c ∗ R ⊢ wpu c.
Proof. constructor. intros h (h1 & h2 & -> & Hd & H1 & H2) hf Hf. rewrite -assoc_L. apply H1. solve_map_disjoint. Qed.
Lemma wpu_set_ptr a l i x P : (List.length l ≤ i)%nat → a ↦ CBlock (BPtrs l) ∗ P ⊢ wpu (set_ptr a i x).
Proof.
  iIntros (Hi) "[A P]". iApply wpu_bind. iApply wp_bind. iApply wp_get_block. iFrame "A". iIntros "A". iApply wp_ret.
  rewrite (proj2 (Nat.ltb_ge i (List.length l)) Hi). iApply (wpu_lift (a ↦ CBlock (BPtrs l) ∗ P)). iFrame.
Qed.
Lemma wpu_irregular_clone h p x : sees h (m_irregular p x) → ir_predicates x ≠ [] → own h ⊢ wpu (osl_irregular_clone_p p).
Proof.
  iIntros (Sx H0) "H". destruct (sees_irregular h p x Sx) as (nd & E & Hp & En & Hpr & Hst & Hc & He & Hn).
  unfold osl_irregular_clone_p. rewrite null_ne; [|done]. iApply wpu_bind. iApply wp_malloc. iIntros (q) "P". iApply wpu_bind. iApply wp_get_irregular_own; [done|]. iFrame "H". iIntros "H".
  rewrite -En. replace (in_control nd) with (ir_control x) by by rewrite En. replace (in_exit nd) with (ir_exit x) by by rewrite En. replace (in_stmts nd) with (count (ir_statements x)) by by rewrite En.
  iApply wpu_bind. iApply wp_malloc. iIntros (np) "Np". iApply wpu_bind. iApply wp_malloc. iIntros (pr) "Pr". iApply wpu_bind.
  iDestruct (filled_stmts_new with "[$Np $Pr]") as "G". unfold count at 1 2. rewrite !Nat2Z.id.
  iApply (wp_each_statement clone_statement_p h nd (ir_statements x) np pr 0); [intros; by eapply wp_clone_statement|done|].
  rewrite Nat.add_0_r. iFrame "H G". iIntros "H G". rewrite -Hn. iApply wpu_bind. iApply wp_malloc. iIntros (ni) "Ni". iApply wpu_bind. iApply wp_malloc. iIntros (it) "It". iApply wpu_bind. iApply wp_malloc. iIntros (bo) "Bo".
  iApply wpu_bind_l. unfold count at 1 2 3 4. rewrite !Nat2Z.id. destruct Hpr as (ts & bs & S1 & S2 & S3 & S4 & S5).
  destruct (ir_predicates x) as [|y L]; [done|]. cbn [List.length pfor]. iApply wpu_bind_l.
  destruct (sees_each _ h _ (pd_iterators y) ts 0%nat S3 eq_refl) as (t & Ht & St). destruct (sees_each _ h _ (pd_body y) bs 0%nat S5 eq_refl) as (b & Hb & Sb).
  unfold clone_predicate_p. iApply wpu_bind. iApply (wp_read_int h _ _ 0%nat (count (pd_iterators y))); [done|done|]. iFrame "H". iIntros "H".
  iApply wpu_bind. iApply (wp_set_int ni (repeat None (S (List.length L)))); [cbn; lia|]. iFrame "Ni". iIntros "Ni". iApply wpu_bind. iApply wp_malloc. iIntros (u) "U".
  iApply wpu_bind. iApply (wp_set_ptr it (repeat None (S (List.length L)))); [cbn; lia|]. iFrame "It". iIntros "It". iApply wpu_bind. unfold count. rewrite !Nat2Z.id.
  apply sees_somewhere in St as (ps & St). apply sees_beside in St as [Sp Sq].
  iApply (wp_copy_strs _ h ps _ u []); [done| |].
  - intros i r Q' Hi. iIntros "[H K]". iApply wp_bind. iApply wp_read_ptr; [done..|]. iFrame "H". iIntros "H". iApply wp_bind.
    iApply (wp_read_ptr h t ps); [done..|]. iFrame "H". done.
  - rewrite app_nil_r. iFrame "H U". iIntros (qs) "H U S". rewrite app_nil_r. iDestruct (m_strs_length with "S") as "[%El S]".
    iApply wpu_bind. iApply wp_read_ptr; [done..|]. iFrame "H". iIntros "H". iApply wpu_bind. iApply wp_OSL_strdup; [done|]. iFrame "H". iIntros (c) "H C".
    iApply (wpu_set_ptr u (map Some qs) _ c (own h ∗ True)); [rewrite map_length; lia|]. iFrame "U H".
Qed.
End R.
