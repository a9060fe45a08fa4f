(** * ReadHeapProofs: the readers in memory, tools, strings, bodies and arrays *)
From stdpp Require Import gmap.
From iris.proofmode Require Import tactics.
From Coq Require Import ZifyBool ZifyNat.
From Verif Require Import Base IntModel VectorModel RelationModel UtilModel StringsModel RelTextModel ExtModel HeapModel HeapObjects HeapSpec HeapLogic HeapProofs PayloadModel PayloadSpec PayloadProofs PayloadProofs2 PayloadProofs3 PayloadProofs4 PayloadProofs5 PayloadProofs6 MatProofs MatProofs4 IrregHeapProofs ScopModel FullModel ReadHeapModel.
Local Open Scope string_scope.
Local Open Scope list_scope.
Local Open Scope Z_scope.
Local Open Scope bi_scope.

Section READ.
Context {cfg : config} {al : Allocator obj}.

(** ** Tools *)
(** A step on the text. *)
Lemma sim_read {B C D} (v : res B) (g : B → res D) (f : B → oprog C) Q :
  (∀ b, <affine> ⌜v = Ok b⌝ -∗ sim (g b) (f b) Q) ⊢ sim (bind v g) (pbind (lift v) f) Q.
Proof. iIntros "H". iApply sim_bind. iApply sim_lift. done. Qed.
Lemma sim_step {B C} (v : res B) (f : B → oprog C) Q :
  (∀ b, <affine> ⌜v = Ok b⌝ -∗ wp (f b) (Q b)) ⊢ sim v (pbind (lift v) f) Q.
Proof.
  destruct v as [b| | |]; cbn; [|rewrite -wpe_bind_l; apply wpe_lift|by iIntros "_"..].
  iIntros "H". iApply wp_bind. iApply wp_lift; [done|]. by iApply "H".
Qed.
Lemma wp_ret_inv {A} (a : A) (Q : A → oprop) : wp (ret a) Q ⊢ Q a.
Proof.
  constructor. intros h H. destruct (H ∅) as (a' & h' & E & _ & H'); [apply map_disjoint_empty_r|]. unfold ret in E.
  assert (E1 : a = a' ∧ h ∪ ∅ = h' ∪ ∅) by (split; congruence). destruct E1 as [<- E1]. rewrite !(right_id_L ∅ (∪)) in E1. by subst h'.
Qed.
(** What is computed from the values only. *)
Lemma sim_tail {A B D} (v : res B) (g : B → res D) (c : oprog A) Q : sim v c (λ b a, sim (g b) (ret a) Q) ⊢ sim (bind v g) c Q.
Proof.
  destruct v as [b| | |]; cbn; [|done..]. destruct (g b) as [d| | |]; cbn; [| |done..].
  - iIntros "H". iApply wp_wand. iFrame "H". iIntros (a) "H". by iApply wp_ret_inv.
  - constructor. intros h H hf Hd. destruct (H hf Hd) as (a & h' & E & Hd' & H'). exfalso.
    specialize (H' hf Hd'). unfold ret in H'. done.
Qed.

Lemma bind_ok {A} (v : res A) : bind v Ok = v.
Proof. by destruct v. Qed.
(** *** Loops on values with a state *)
Lemma sim_hfor {S T} (I : T → S → oprop) (f : Z → T → res T) (g : Z → S → oprog S) k : ∀ i t s Q,
  (∀ j t s, (i ≤ j < i + Z.of_nat k)%Z → I t s ⊢ sim (f j t) (g j s) I) →
  I t s ∗ (∀ t' s', I t' s' -∗ Q t' s') ⊢ sim (for_loop k i f t) (hfor k i g s) Q.
Proof.
  induction k as [|k IH]; intros i t s Q H; cbn [for_loop hfor]; iIntros "[H K]".
  - iApply sim_ret. by iApply "K".
  - iApply sim_bind. iApply sim_mono. iSplitL "H". { iApply (H i t s with "H"). lia. }
    iIntros (t' s') "_ H". iApply IH; [|iFrame]. intros j t0 s0 Hj. apply H. lia.
Qed.

(** ** Strings and lines *)
Lemma wp_get_str p s (Q : _ → oprop) : p ↦ CBlock (BStr s) ∗ (p ↦ CBlock (BStr s) -∗ Q s) ⊢ wp (get_str p) Q.
Proof. iIntros "[H K]". iApply wp_bind. iApply wp_get_block. iFrame "H". iIntros "H". iApply wp_ret. by iApply "K". Qed.
Lemma sim_read_string s Q : (∀ p t s', p ↦ CBlock (BStr t) -∗ Q (t, s') (p, s')) ⊢ sim (osl_util_read_string_s s) (osl_util_read_string_h s) Q.
Proof.
  iIntros "K". unfold osl_util_read_string_h. iApply sim_heap. iApply wp_malloc. iIntros (r) "H".
  iApply sim_step. iIntros ([t s']) "_". cbn.
  iApply wp_bind. iApply wp_free. iFrame "H". iApply wp_bind. iApply wp_malloc. iIntros (p) "H". iApply wp_ret. by iApply "K".
Qed.
Lemma sim_read_line s Q : (∀ p t s', p ↦ CBlock (BStr t) -∗ Q (t, s') (p, s')) ⊢ sim (osl_util_read_line_s s) (osl_util_read_line_h s) Q.
Proof.
  iIntros "K". unfold osl_util_read_line_h. iApply sim_heap. iApply wp_malloc. iIntros (r) "H".
  iApply sim_step. iIntros ([t s']) "_". cbn.
  iApply wp_bind. iApply wp_free. iFrame "H". iApply wp_bind. iApply wp_malloc. iIntros (p) "H". iApply wp_ret. by iApply "K".
Qed.
Lemma wp_tag_string {X} (x : option str * X) Q : (∀ p, M (m_str p (fst x)) -∗ Q (p, snd x)) ⊢ wp (tag_string x) Q.
Proof.
  iIntros "K". destruct x as [[t|] y]; unfold tag_string; cbn.
  - iApply wp_bind. iApply wp_malloc. iIntros (p) "H". iApply wp_ret. iApply "K". by rewrite M_cell.
  - iApply wp_ret. iApply "K". by rewrite M_nothing.
Qed.
Lemma wp_upto_string {X} r (x : option str * X) Q : r ↦ CBlock (BStr []) ∗ (∀ p, M (m_str p (fst x)) -∗ Q (p, snd x)) ⊢ wp (upto_string r x) Q.
Proof.
  iIntros "[R K]". destruct x as [[t|] y]; unfold upto_string; cbn; iApply wp_bind; iApply wp_free; iFrame "R".
  - iApply wp_bind. iApply wp_malloc. iIntros (p) "H". iApply wp_ret. iApply "K". by rewrite M_cell.
  - iApply wp_ret. iApply "K". by rewrite M_nothing.
Qed.
Lemma sim_read_tag s Q : (∀ p t s', <affine> ⌜osl_util_read_tag_s s = Ok (t, s')⌝ -∗ M (m_str p t) -∗ Q (t, s') (p, s')) ⊢ sim (osl_util_read_tag_s s) (osl_util_read_tag_h s) Q.
Proof.
  iIntros "K". unfold osl_util_read_tag_h. iApply sim_step. iIntros ([t s']) "E". cbn.
  iApply wp_tag_string. cbn. iIntros (p) "H". by iApply ("K" with "E").
Qed.
Lemma sim_read_tag_f f Q : (∀ p t f', <affine> ⌜osl_util_read_tag_f f = Ok (t, f')⌝ -∗ M (m_str p t) -∗ Q (t, f') (p, f')) ⊢ sim (osl_util_read_tag_f f) (osl_util_read_tag_fh f) Q.
Proof.
  iIntros "K". unfold osl_util_read_tag_fh. iApply sim_step. iIntros ([t s']) "E". cbn.
  iApply wp_tag_string. cbn. iIntros (p) "H". by iApply ("K" with "E").
Qed.
Lemma wp_read_upto s flag Q : (∀ p, M (m_str p (fst (osl_util_read_uptoflag_s s flag))) -∗ Q (p, snd (osl_util_read_uptoflag_s s flag))) ⊢ wp (osl_util_read_uptoflag_h s flag) Q.
Proof.
  iIntros "K". unfold osl_util_read_uptoflag_h. iApply wp_bind. iApply wp_malloc. iIntros (r) "R". iApply wp_upto_string. by iFrame.
Qed.
Lemma sim_read_upto_f f flag Q : (∀ p t f', <affine> ⌜osl_util_read_uptoflag_f f flag = Ok (t, f')⌝ -∗ M (m_str p t) -∗ Q (t, f') (p, f')) ⊢
  sim (osl_util_read_uptoflag_f f flag) (osl_util_read_uptoflag_fh f flag) Q.
Proof.
  iIntros "K". unfold osl_util_read_uptoflag_fh. iApply sim_heap. iApply wp_malloc. iIntros (r) "R".
  iApply sim_step. iIntros ([t s']) "E". cbn.
  iApply wp_upto_string. iFrame "R". cbn. iIntros (p) "H". by iApply ("K" with "E").
Qed.

(** ** Arrays of strings *)
Lemma sim_read_tokens nb : ∀ a ps l r s Q, List.length ps = List.length l →
  a ↦ CBlock (BPtrs (map Some ps ++ repeat None nb ++ r)) ∗ M (m_strs ps (map Some l)) ∗
  (∀ qs l' e, <affine> ⌜List.length l' = nb⌝ -∗ a ↦ CBlock (BPtrs (map Some (ps ++ qs) ++ r)) -∗ M (m_strs (ps ++ qs) (map Some (l ++ l'))) -∗ Q (l', e) e) ⊢
  sim (read_tokens nb s) (read_tokens_h nb (List.length ps) a s) Q.
Proof.
  induction nb as [|k IH]; intros a ps l r s Q Hl; cbn [read_tokens read_tokens_h]; iIntros "(A & S & K)".
  - iApply sim_ret. iApply ("K" $! [] [] s with "[//] [A] [S]"); by rewrite ?app_nil_r.
  - destruct s as [s|]; [|iStopProof; apply sim_UB]. destruct (span is_tok s) as [t r']. iApply sim_read. iIntros (t') "_".
    iApply sim_heap. iApply wp_malloc. iIntros (x) "X". iApply sim_heap. cbn [repeat app]. iApply wp_push_ptr. iFrame "A". iIntros "A".
    iApply sim_tail.
    replace (S (List.length ps)) with (List.length (ps ++ [x])) by (rewrite app_length; cbn; lia).
    iApply (IH a (ps ++ [x]) (l ++ [t'])). { rewrite !app_length. cbn. lia. }
    iFrame "A". iSplitL "S X". { rewrite map_app. iApply m_strs_snoc. cbn [m_str]. rewrite M_cell. iFrame. }
    iIntros (qs l' e) "%Hl' A S". iApply sim_ret. rewrite -!app_assoc. iApply ("K" $! (x :: qs) (t' :: l') e with "[] A S"). iPureIntro. cbn. lia.
Qed.
Lemma sim_strings_sread s Q : (∀ p o e, M (m_strings p o) -∗ Q (o, e) (p, e)) ⊢ sim (osl_strings_sread s) (osl_strings_sread_h s) Q.
Proof.
  iIntros "K". unfold osl_strings_sread, osl_strings_sread_h. iApply sim_read. iIntros (s1) "_". iApply sim_read. iIntros (nb) "_".
  destruct (Z.ltb_spec 0 nb).
  - iApply sim_heap. iApply wp_malloc. iIntros (a) "A". iApply sim_heap. iApply (wp_set_ptr a (repeat None (Z.to_nat nb + 1))). { rewrite repeat_length. lia. }
    iFrame "A". iIntros "A". rewrite new_table. iApply sim_bind. iApply (sim_read_tokens _ a [] [] [Some NULL]); [done|].
    iFrame "A". iSplitR. { cbn [m_strs map List.map]. by rewrite M_nothing. }
    iIntros (qs l e) "%Hl A S". cbn [app]. iApply sim_heap. iApply wp_strings_malloc_raw. iIntros (p b) "P B".
    iApply sim_heap. iApply wp_get_strings. iFrame "P". iIntros "P". iApply sim_heap. iApply wp_free. iFrame "B".
    iApply sim_heap. iApply wp_put. iFrame "P". iIntros "P". iApply sim_ret. iApply "K". iApply m_strings_intro. iFrame.
  - iApply sim_ret. iApply "K". cbn [m_strings]. by rewrite M_nothing.
Qed.
Lemma sim_strings_read f Q : (∀ p o f', M (m_strings p o) -∗ Q (o, f') (p, f')) ⊢ sim (osl_strings_read f) (osl_strings_read_h f) Q.
Proof.
  iIntros "K". unfold osl_strings_read, osl_strings_read_h. iApply sim_read. iIntros ([o f']) "_". destruct o as [l|]; [|iStopProof; apply sim_UB].
  iApply sim_bind. iApply sim_strings_sread. iIntros (p o e) "P". iApply sim_ret. by iApply "K".
Qed.
Lemma sim_body_sread s Q : (∀ p b s', M (m_body p (Some b)) -∗ Q (b, s') (p, s')) ⊢ sim (osl_body_sread s) (osl_body_sread_h s) Q.
Proof.
  iIntros "K". unfold osl_body_sread, osl_body_sread_h. iApply sim_heap. iApply wp_malloc. iIntros (p) "P". iApply sim_read. iIntros ([nb s1]) "_".
  iApply sim_bind. iAssert (∀ i o c, M (m_strings i o) -∗ sim match c with None => UB | Some s => '(e, s) <- osl_util_read_line_s s ;; Ok (Body o (Some (osl_strings_encapsulate (Some e))), s) end
    (put p (BBody i NULL) ;;== match c with None => lift UB | Some s => '(expression, s) <== osl_util_read_line_h s ;; e <== osl_strings_encapsulate_p expression ;; put p (BBody i e) ;;== ret (p, s) end) Q) with "[K P]" as "K".
  - iIntros (i o c) "I". iApply sim_heap. iApply wp_put. iFrame "P". iIntros "P". destruct c as [s2|]; [|iStopProof; apply sim_UB].
    iApply sim_bind. iApply sim_read_line. iIntros (x t s3) "X". iApply sim_heap. iApply wp_strings_encapsulate. cbn [m_str]. rewrite M_cell. iFrame "X".
    iIntros (e) "E". iApply sim_heap. iApply wp_put. iFrame "P". iIntros "P". iApply sim_ret. iApply "K". cbn [m_body]. rewrite M_somewhere. iExists (i, e).
    rewrite !M_beside M_cell. iFrame.
  - destruct (0 <? nb)%Z.
    + iApply sim_strings_sread. iIntros (i o c) "I". iApply ("K" with "I").
    + iApply sim_heap. iApply wp_strings_malloc. iIntros (i) "I". iApply sim_ret. iApply ("K" $! i (Some osl_strings_malloc) (Some s1) with "I").
Qed.

(** ** Arrays of numbers *)
Lemma sim_read_ints k : ∀ a pre s Q,
  a ↦ CBlock (BInts (map Some pre ++ repeat None k)) ∗
  (∀ l s', <affine> ⌜List.length l = k⌝ -∗ a ↦ CBlock (BInts (map Some (pre ++ l))) -∗ Q (l, s') s') ⊢
  sim (read_ints k s) (read_ints_h k (List.length pre) a s) Q.
Proof.
  induction k as [|k IH]; intros a pre s Q; cbn [read_ints read_ints_h repeat]; iIntros "[A K]".
  - iApply sim_ret. iApply ("K" $! [] s with "[//]"). by rewrite !app_nil_r.
  - iApply sim_read. iIntros ([v s1]) "_". iApply sim_heap. iApply wp_push_num. iFrame "A". iIntros "A". iApply sim_tail.
    replace (S (List.length pre)) with (List.length (pre ++ [v])) by (rewrite app_length; cbn; lia).
    iApply IH. iFrame "A". iIntros (l s') "%Hl A". iApply sim_ret. rewrite -app_assoc. iApply ("K" $! (v :: l) s' with "[] A"). iPureIntro. cbn. lia.
Qed.
Lemma sim_read_ints0 k a s Q :
  a ↦ CBlock (BInts (repeat None k)) ∗ (∀ l s', <affine> ⌜List.length l = k⌝ -∗ M (m_ints a l) -∗ Q (l, s') s') ⊢ sim (read_ints k s) (read_ints_h k 0 a s) Q.
Proof.
  iIntros "[A K]". iApply (sim_read_ints k a []). iFrame "A". iIntros (l s') "H A". iApply ("K" with "H"). by iApply m_ints_block.
Qed.
Lemma sim_read_pairs k : ∀ a b pre s Q,
  a ↦ CBlock (BInts (map Some (List.map fst pre) ++ repeat None k)) ∗ b ↦ CBlock (BInts (map Some (List.map snd pre) ++ repeat None k)) ∗
  (∀ l s', <affine> ⌜List.length l = k⌝ -∗ a ↦ CBlock (BInts (map Some (List.map fst (pre ++ l)))) -∗ b ↦ CBlock (BInts (map Some (List.map snd (pre ++ l)))) -∗ Q (l, s') s') ⊢
  sim (read_pairs k s) (read_pairs_h k (List.length pre) a b s) Q.
Proof.
  induction k as [|k IH]; intros a b pre s Q; cbn [read_pairs read_pairs_h repeat]; iIntros "(A & B & K)".
  - iApply sim_ret. iApply ("K" $! [] s with "[//] [A]"); by rewrite !app_nil_r.
  - iApply sim_read. iIntros ([v s1]) "_". iApply sim_heap. rewrite -{1}(map_length fst pre). iApply wp_push_num. iFrame "A". iIntros "A".
    iApply sim_read. iIntros ([w s2]) "_". iApply sim_heap. rewrite -{1}(map_length snd pre). iApply wp_push_num. iFrame "B". iIntros "B". iApply sim_tail.
    replace (S (List.length pre)) with (List.length (pre ++ [(v, w)])) by (rewrite app_length; cbn; lia).
    iApply IH. rewrite !(List.map_app _ pre). cbn [List.map fst snd]. iFrame "A B". iIntros (l s') "%Hl A B". iApply sim_ret. rewrite -app_assoc. iApply ("K" $! ((v, w) :: l) s' with "[] A B"). iPureIntro. cbn. lia.
Qed.
Lemma sim_read_arrays k : ∀ a b pre ps s Q, List.length ps = List.length pre →
  a ↦ CBlock (BInts (map Some (List.map fst pre) ++ repeat None k)) ∗ b ↦ CBlock (BPtrs (map Some (ps ++ repeat NULL k))) ∗
  M (m_strs ps (List.map (λ e, Some (snd e)) pre)) ∗
  (∀ l qs s', <affine> ⌜List.length l = k⌝ -∗ a ↦ CBlock (BInts (map Some (List.map fst (pre ++ l)))) -∗ b ↦ CBlock (BPtrs (map Some (ps ++ qs))) -∗
     M (m_strs (ps ++ qs) (List.map (λ e, Some (snd e)) (pre ++ l))) -∗ Q (l, s') s') ⊢
  sim (read_arrays k s) (read_arrays_h k (List.length pre) a b s) Q.
Proof.
  induction k as [|k IH]; intros a b pre ps s Q Hp; cbn [read_arrays read_arrays_h repeat]; iIntros "(A & B & S & K)".
  - iApply sim_ret. iApply ("K" $! [] [] s with "[//] [A] [B]"); by rewrite !app_nil_r.
  - iApply sim_read. iIntros ([v s1]) "_". iApply sim_heap. rewrite -{1}(map_length fst pre). iApply wp_push_num. iFrame "A". iIntros "A".
    iApply sim_bind. iApply sim_read_string. iIntros (x t s2) "X". iApply sim_heap. rewrite -{1}Hp. rewrite map_app. cbn [List.map].
    iApply wp_push_ptr. iFrame "B". iIntros "B". iApply sim_tail.
    replace (S (List.length pre)) with (List.length (pre ++ [(v, t)])) by (rewrite app_length; cbn; lia).
    iApply (IH a b (pre ++ [(v, t)]) (ps ++ [x])). { rewrite !app_length. cbn. lia. }
    rewrite !(List.map_app _ pre). cbn [List.map fst snd]. iFrame "A". iSplitL "B". { by rewrite -map_app. }
    iSplitL "S X". { iApply m_strs_snoc. cbn [m_str]. rewrite M_cell. iFrame. }
    iIntros (l qs s') "%Hl A B S". iApply sim_ret. rewrite -!app_assoc. iApply ("K" $! ((v, t) :: l) (x :: qs) s' with "[] A B S"). iPureIntro. cbn. lia.
Qed.
End READ.
