(** * ReadHeapProofs2: the readers in memory, extensions *)
From stdpp Require Import gmap.
From iris.proofmode Require Import tactics.
From Coq Require Import ZifyBool ZifyNat.
From Verif Require Import Base IntModel VectorModel RelationModel UtilModel StringsModel RelTextModel ExtModel HeapModel HeapObjects HeapSpec HeapLogic HeapProofs PayloadModel PayloadSpec PayloadProofs PayloadProofs2 PayloadProofs3 PayloadProofs4 PayloadProofs5 PayloadProofs6 MatProofs MatProofs4 IrregHeapProofs ScopModel FullModel ReadHeapModel ReadHeapProofs.
Local Open Scope string_scope.
Local Open Scope list_scope.
Local Open Scope Z_scope.
Local Open Scope bi_scope.

Ltac mal x H := iApply sim_heap; iApply wp_malloc; iIntros (x) H.
Ltac sput H := iApply sim_heap; iApply wp_put; iFrame H; iIntros H.
Ltac rint x s := iApply sim_read; iIntros ([x s]) "_".

Section READ.
Context {cfg : config} {al : Allocator obj}.

(** ** Extensions with a fixed shape *)
Lemma sim_extbody_sread s Q : (∀ p x s', M (m_extbody p x) -∗ Q (x, s') (p, s')) ⊢ sim (osl_extbody_sread s) (osl_extbody_sread_h s) Q.
Proof.
  iIntros "K". unfold osl_extbody_sread, osl_extbody_sread_h. rint nb s1. destruct (Z.ltb_spec nb 0); [iStopProof; apply sim_err|].
  mal p "P". mal a "A". mal b "B". sput "P". iApply sim_bind. iApply (sim_read_pairs _ a b []). iFrame "A B".
  iIntros (l s2) "%Hl A B". iApply sim_bind. iApply sim_body_sread. iIntros (bo x s3) "X". sput "P". iApply sim_ret. iApply "K".
  unfold m_extbody. rewrite M_somewhere. iExists (a, b, bo). cbn [eb_access eb_body app]. rewrite Hl Z2Nat.id; [|lia].
  rewrite !M_beside M_cell. iFrame. iSplitL "A"; by iApply m_ints_block.
Qed.
Lemma pfor_null b n : ∀ k j l Q, (j + k = n)%nat → List.length l = j →
  b ↦ CBlock (BPtrs (map Some l ++ repeat None k)) ∗ (b ↦ CBlock (BPtrs (map Some (l ++ repeat NULL k))) -∗ Q tt) ⊢ wp (pfor k j (λ i, set_ptr b i NULL)) Q.
Proof.
  induction k as [|k IH]; intros j l Q Hk Hl; cbn [pfor repeat]; iIntros "[B K]".
  - rewrite !app_nil_r. iApply wp_ret. by iApply "K".
  - iApply wp_bind. rewrite -{1}Hl. iApply wp_push_ptr. iFrame "B". iIntros "B". iApply (IH (S j) (l ++ [NULL])); [lia|rewrite app_length; cbn; lia|].
    iFrame "B". by rewrite -app_assoc.
Qed.
Lemma sim_arrays_sread s Q : (∀ p x s', M (m_arrays p x) -∗ Q (x, s') (p, s')) ⊢ sim (osl_arrays_sread s) (osl_arrays_sread_h s) Q.
Proof.
  iIntros "K". unfold osl_arrays_sread, osl_arrays_sread_h. rint nb s1. destruct (Z.ltb_spec nb 0); [iStopProof; apply sim_err|].
  mal p "P". mal a "A". mal b "B". sput "P". iApply sim_heap. iApply (pfor_null b (Z.to_nat nb) (Z.to_nat nb) 0 []); [done..|]. iFrame "B". iIntros "B".
  rewrite -(bind_ok (read_arrays _ _)). iApply sim_bind. iApply (sim_read_arrays _ a b [] []); [done|]. cbn [app List.map m_strs]. rewrite M_nothing. iFrame "A B". iSplitR; [done|].
  iIntros (l qs s2) "%Hl A B S". iApply sim_ret. iApply "K". unfold m_arrays. rewrite M_somewhere. iExists (a, b, qs). rewrite Hl Z2Nat.id; [|lia].
  rewrite M_beside M_beside M_cell. iFrame "P". iSplitL "A"; [by iApply m_ints_block|]. iApply m_table_block. iFrame.
Qed.
Lemma m_comment_intro p t s : p ↦ CBlock (BHolder t) ∗ t ↦ CBlock (BStr s) ⊢ M (m_comment p (Some s)).
Proof. iIntros "[P T]". unfold m_comment. rewrite M_somewhere. iExists t. cbn [m_str]. rewrite M_beside !M_cell. iFrame. Qed.
Lemma sim_comment_sread s Q : (∀ p x s', M (m_comment p x) -∗ Q (x, s') (p, s')) ⊢ sim (osl_comment_sread s) (osl_comment_sread_h s) Q.
Proof.
  iIntros "K". unfold osl_comment_sread, osl_comment_sread_h. destruct (Z.ltb MAX_STRING (zlength s)); [iStopProof; apply sim_err|].
  mal p "P". mal t "T". sput "P". iApply sim_ret. iApply "K". iApply m_comment_intro. iFrame.
Qed.
Lemma sim_clay_sread s Q : (∀ p x s', M (m_comment p x) -∗ Q (x, s') (p, s')) ⊢ sim (osl_clay_sread s) (osl_clay_sread_h s) Q.
Proof.
  iIntros "K". unfold osl_clay_sread, osl_clay_sread_h. destruct (Z.ltb MAX_STRING (zlength s)); [iStopProof; apply sim_err|].
  mal p "P". mal t "T". sput "P". iApply sim_ret. iApply "K". iApply m_comment_intro. iFrame.
Qed.
Lemma sim_textual_sread s Q : (∀ p x s', M (m_comment p x) -∗ Q (x, s') (p, s')) ⊢ sim (osl_textual_sread s) (osl_textual_sread_h s) Q.
Proof.
  iIntros "K". unfold osl_textual_sread, osl_textual_sread_h. mal p "P". mal t "T". sput "P". iApply sim_ret. iApply "K". iApply m_comment_intro. iFrame.
Qed.
Lemma sim_null_sread s Q : (∀ p s', M (m_null p) -∗ Q (tt, s') (p, s')) ⊢ sim (osl_null_sread s) (osl_null_sread_h s) Q.
Proof. iIntros "K". unfold osl_null_sread, osl_null_sread_h. mal p "P". iApply sim_ret. iApply "K". unfold m_null. by rewrite M_cell. Qed.
Lemma m_strings_null p o : M (m_strings p o) ⊢ <affine> ⌜isnull p = match o with None => true | _ => false end⌝ ∗ M (m_strings p o).
Proof.
  destruct o as [[l|]|]; cbn [m_strings].
  - iIntros "(%w & H)". destruct w as [a ps]. iDestruct "H" as "(P & H)". rewrite M_cell. iDestruct (pointsto_not_null with "P") as %Hn.
    iSplitR; [iPureIntro; by apply null_ne|]. rewrite M_somewhere. iExists (a, ps). iSplitL "P"; [by rewrite M_cell|]. iExact "H".
  - iIntros "P". rewrite M_cell. iDestruct (pointsto_not_null with "P") as %Hn. iFrame. iPureIntro. by apply null_ne.
  - rewrite M_nothing. iIntros "%H". subst p. done.
Qed.
Lemma sim_scatnames_sread s Q :
  (∀ p x s', match x with None => <affine> ⌜p = NULL⌝ | Some x => M (m_scatnames p x) end -∗ Q (x, s') (p, s')) ⊢ sim (osl_scatnames_sread s) (osl_scatnames_sread_h s) Q.
Proof.
  iIntros "K". unfold osl_scatnames_sread, osl_scatnames_sread_h. iApply sim_bind. iApply sim_strings_sread. iIntros (n o e) "N".
  iDestruct (m_strings_null with "N") as "[%E N]". rewrite E. destruct o as [o|].
  - mal p "P". sput "P". iApply sim_ret. iApply "K". unfold m_scatnames. rewrite M_somewhere. iExists n. rewrite M_beside M_cell. iFrame.
  - iApply sim_ret. cbn [m_strings]. rewrite M_nothing. iDestruct "N" as %->. by iApply "K".
Qed.
Lemma sim_coordinates_sread s Q : (∀ p x s', M (m_coordinates p x) -∗ Q (x, s') (p, s')) ⊢ sim (osl_coordinates_sread s) (osl_coordinates_sread_h s) Q.
Proof.
  iIntros "K". unfold osl_coordinates_sread, osl_coordinates_sread_h. mal p "P". iApply sim_bind. iApply sim_read_line. iIntros (n t s1) "N".
  rint a s2. rint b s3. rint c s4. rint d s5. rint e s6. sput "P". iApply sim_ret. iApply "K". unfold m_coordinates. rewrite M_somewhere. iExists n.
  cbn [co_name co_line_start co_line_end co_column_start co_column_end co_indent m_str]. rewrite M_beside !M_cell. iFrame.
Qed.
Lemma zip3_length a b c : List.length a = List.length b → List.length a = List.length c → List.length (zip3 a b c) = List.length a.
Proof. revert b c. induction a as [|x a IH]; intros [|y b] [|z c]; cbn; try lia. intros. by rewrite IH; lia. Qed.
Lemma zip3_maps a b c : List.length a = List.length b → List.length a = List.length c →
  (List.map si_parallel (zip3 a b c) = a ∧ List.map si_permutable (zip3 a b c) = b ∧ List.map si_type (zip3 a b c) = c)%type.
Proof.
  revert b c. induction a as [|x a IH]; intros [|y b] [|z c]; cbn; try lia; [done|]. intros H1 H2. destruct (IH b c) as (E1 & E2 & E3); [lia..|].
  by rewrite E1 E2 E3.
Qed.
Lemma sim_scatinfos_sread s Q : (∀ p x s', M (m_scatinfos p x) -∗ Q (x, s') (p, s')) ⊢ sim (osl_scatinfos_sread s) (osl_scatinfos_sread_h s) Q.
Proof.
  iIntros "K". unfold osl_scatinfos_sread, osl_scatinfos_sread_h. mal p "P". rint nb s1. destruct (Z.ltb_spec nb 0); [iStopProof; apply sim_err|].
  mal a "A". sput "P". iApply sim_bind. iApply sim_read_ints0. iFrame "A". iIntros (la s2) "%Ha A".
  mal b "B". sput "P". iApply sim_bind. iApply sim_read_ints0. iFrame "B". iIntros (lb s3) "%Hb B".
  mal c "C". sput "P". iApply sim_bind. iApply sim_read_ints0. iFrame "C". iIntros (lc s4) "%Hc C".
  iApply sim_ret. iApply "K". unfold m_scatinfos. rewrite M_somewhere. iExists (a, b, c).
  destruct (zip3_maps la lb lc) as (E1 & E2 & E3); [lia..|]. rewrite E1 E2 E3 zip3_length; [|lia..]. rewrite Ha Z2Nat.id; [|lia].
  rewrite !M_beside M_cell. iFrame.
Qed.

(** ** Annotations and regions *)
Lemma sim_read_lines k : ∀ t ps pre s Q,
  M (m_text t ps pre) ∗ (∀ t' qs l s', M (m_text t' qs (pre ++ l)) -∗ Q (l, s') (t', s')) ⊢ sim (read_lines k s) (read_lines_h k t s) Q.
Proof.
  induction k as [|k IH]; intros t ps pre s Q; cbn [read_lines read_lines_h]; iIntros "[T K]".
  - iApply sim_ret. iApply "K". rewrite app_nil_r. iFrame.
  - rint ty s1. iApply sim_bind. iApply sim_read_line. iIntros (x u s2) "X". iApply sim_heap. iApply (wp_text_append t ps pre ty x (Some u)).
    iFrame "T". iSplitL "X". { cbn [m_str]. by rewrite M_cell. } iIntros (t') "T". iApply sim_tail. iApply (IH t' (ps ++ [x]) (pre ++ [(ty, Some u)])).
    iFrame "T". iIntros (t'' qs l s') "T". iApply sim_ret. iApply ("K" $! _ qs). by rewrite -app_assoc.
Qed.
Lemma sim_text_sread s Q : (∀ t ps x s', M (m_text t ps x) -∗ Q (x, s') (t, s')) ⊢ sim (text_sread s) (text_sread_h s) Q.
Proof.
  iIntros "K". unfold text_sread, text_sread_h. rint nb s1. destruct (Z.ltb_spec nb 0); [iStopProof; apply sim_err|].
  iApply (sim_read_lines _ no_text [] []). iSplitR; [by iApply m_text_none|]. iIntros (t qs l s') "T". iApply ("K" with "T").
Qed.
Lemma sim_annotation_sread s Q : (∀ p x s', M (m_annotation p x) -∗ Q (x, s') (p, s')) ⊢ sim (osl_annotation_sread s) (osl_annotation_sread_h s) Q.
Proof.
  iIntros "K". unfold osl_annotation_sread, osl_annotation_sread_h. mal p "P". iApply sim_bind. iApply sim_text_sread. iIntros (t ps x s1) "T". sput "P".
  iApply sim_bind. iApply sim_text_sread. iIntros (u qs y s2) "U". sput "P". iApply sim_ret. iApply "K". unfold m_annotation. rewrite M_somewhere. iExists (t, u, ps, qs).
  rewrite !M_beside M_cell. iFrame.
Qed.
Lemma sim_region_fill p b s Q : p ↦ CBlock b ∗ (∀ x s', M (m_region_one p x NULL) -∗ Q (x, s') s') ⊢ sim (region_sread_one s) (region_fill_h p s) Q.
Proof.
  iIntros "[P K]". unfold region_sread_one, region_fill_h. rint l s0.
  iApply sim_bind. iApply sim_text_sread. iIntros (t ps x s1) "T".
  iApply sim_bind. iApply sim_text_sread. iIntros (u qs y s2) "U".
  iApply sim_bind. iApply sim_text_sread. iIntros (v rs z s3) "V".
  iApply sim_bind. iApply sim_text_sread. iIntros (w ss a s4) "W". sput "P". iApply sim_ret. iApply "K".
  unfold m_region_one. rewrite M_somewhere. iExists (t, u, v, w, ps, qs, rs, ss). rewrite !M_beside M_cell. iFrame.
Qed.
Lemma sim_regions_fill k : ∀ p b s Q, p ↦ CBlock b ∗ (∀ l s', M (m_regions p l) -∗ Q (l, s') s') ⊢ sim (regions_sread (S k) s) (regions_fill_h (S k) p s) Q.
Proof.
  induction k as [|k IH]; intros p b s Q; iIntros "[P K]"; cbn [regions_sread regions_fill_h]; iApply sim_bind; iApply sim_region_fill; iFrame "P"; iIntros (x s1) "X".
  - iApply sim_ret. iApply "K". rewrite m_regions_cons. iExists NULL. iFrame "X". cbn [m_regions]. by rewrite M_nothing.
  - mal n "N". iApply sim_heap. iApply wp_set_region_next. iFrame "X". iIntros "X". iApply sim_tail. iApply (IH with "[-]"). iFrame "N".
    iIntros (l s') "L". iApply sim_ret. iApply "K". rewrite m_regions_cons. iExists n. iFrame.
Qed.
Lemma sim_region_sread s Q : (∀ p l s', M (m_regions p l) -∗ Q (l, s') (p, s')) ⊢ sim (osl_region_sread s) (osl_region_sread_h s) Q.
Proof.
  iIntros "K". unfold osl_region_sread, osl_region_sread_h. rint nb s1. destruct (Z.eqb_spec nb 0) as [->|Hn]; [|destruct (Z.ltb_spec nb 0)].
  - iApply sim_ret. iApply "K". cbn [m_regions]. by rewrite M_nothing.
  - mal p "P". replace (Z.to_nat nb) with O by lia. iApply sim_heap. iApply wp_ret. iApply sim_ret. iApply "K". rewrite m_regions_cons. iExists NULL.
    iSplitL; [|cbn [m_regions]; by rewrite M_nothing]. unfold m_region_one. rewrite M_somewhere. iExists (no_text, no_text, no_text, no_text, [], [], [], []).
    rewrite M_beside M_cell. iFrame "P". do 3 (iSplitR; [by iApply m_text_none|]). by iApply m_text_none.
  - mal p "P". destruct (Z.to_nat nb) as [|k] eqn:E; [lia|]. rewrite -(bind_ok (regions_sread _ _)). iApply sim_bind. iApply (sim_regions_fill k). iFrame "P".
    iIntros (l s') "L". iApply sim_ret. by iApply "K".
Qed.

(** ** Loops and unrolling *)
Lemma wp_drop_null p t Q : p ↦ CBlock (BStr t) ∗ (∀ q, M (m_str q (null_if_null t)) -∗ Q q) ⊢ wp (drop_null_h p) Q.
Proof.
  iIntros "[P K]". unfold drop_null_h, null_if_null. iApply wp_bind. iApply wp_get_str. iFrame "P". iIntros "P". destruct (str_eqb t (lit "(null)")).
  - iApply wp_bind. iApply wp_free. iFrame "P". iApply wp_ret. iApply "K". cbn [m_str]. by rewrite M_nothing.
  - iApply wp_ret. iApply "K". cbn [m_str]. by rewrite M_cell.
Qed.
Lemma sim_loop_fill p b s Q : p ↦ CBlock b ∗ (∀ x s', M (m_loop_one p x NULL) -∗ Q (x, s') s') ⊢ sim (loop_sread_one s) (loop_fill_h p s) Q.
Proof.
  iIntros "[P K]". unfold loop_sread_one, loop_fill_h. iApply sim_bind. iApply sim_read_string. iIntros (i t s1) "I". rint nb s2.
  destruct (Z.ltb_spec nb 0); [iStopProof; apply sim_err|]. mal a "A". iApply sim_bind. iApply sim_read_ints0. iFrame "A". iIntros (l s3) "%Hl A".
  iApply sim_bind. iApply sim_read_line. iIntros (v u s4) "V". iApply sim_heap. iApply wp_drop_null. iFrame "V". iIntros (pv) "V". rint d s5.
  iApply sim_bind.
  iAssert (∀ uu o s6, M (m_str uu o) -∗ sim (Ok (Loop (Some t) l (null_if_null u) d o, s6)) (put p (BLoop i nb a pv d uu NULL) ;;== ret s6) Q) with "[P K I A V]" as "K".
  { iIntros (uu o s6) "U". sput "P". iApply sim_ret. iApply "K". unfold m_loop_one. rewrite M_somewhere. iExists (i, a, pv, uu).
    cbn [lo_stmts lo_iter lo_private lo_user lo_directive m_str]. rewrite Hl Z2Nat.id; [|lia]. rewrite !M_beside !M_cell. iFrame. }
  destruct (user_directive d).
  - iApply sim_bind. iApply sim_read_line. iIntros (w x s6) "W". iApply sim_heap. iApply wp_drop_null. iFrame "W". iIntros (uu) "U". iApply sim_ret. by iApply "K".
  - iApply sim_ret. iApply "K". cbn [m_str]. by rewrite M_nothing.
Qed.
Lemma sim_loops_fill k : ∀ p b s Q, p ↦ CBlock b ∗ (∀ l s', M (m_loops p l) -∗ Q (l, s') s') ⊢ sim (loops_sread (S k) s) (loops_fill_h (S k) p s) Q.
Proof.
  induction k as [|k IH]; intros p b s Q; iIntros "[P K]"; cbn [loops_sread loops_fill_h]; iApply sim_bind; iApply sim_loop_fill; iFrame "P"; iIntros (x s1) "X".
  - iApply sim_ret. iApply "K". rewrite m_loops_cons. iExists NULL. iFrame "X". cbn [m_loops]. by rewrite M_nothing.
  - mal n "N". iApply sim_heap. iApply wp_set_loop_next. iFrame "X". iIntros "X". iApply sim_tail. iApply (IH with "[-]"). iFrame "N".
    iIntros (l s') "L". iApply sim_ret. iApply "K". rewrite m_loops_cons. iExists n. iFrame.
Qed.
Lemma sim_loop_sread s Q : (∀ p l s', M (m_loops p l) -∗ Q (l, s') (p, s')) ⊢ sim (osl_loop_sread s) (osl_loop_sread_h s) Q.
Proof.
  iIntros "K". unfold osl_loop_sread, osl_loop_sread_h. rint nb s1. destruct (Z.ltb_spec nb 0); [iStopProof; apply sim_err|]. destruct (Z.eqb_spec nb 0) as [->|Hn].
  - iApply sim_ret. iApply "K". cbn [m_loops]. by rewrite M_nothing.
  - mal p "P". destruct (Z.to_nat nb) as [|k] eqn:E; [lia|]. rewrite -(bind_ok (loops_sread _ _)). iApply sim_bind. iApply (sim_loops_fill k). iFrame "P".
    iIntros (l s') "L". iApply sim_ret. by iApply "K".
Qed.
Lemma sim_unrolls_fill fuel : ∀ p b s Q, p ↦ CBlock b ∗ (∀ l s', M (m_unrolls p l) -∗ Q (l, s') s') ⊢ sim (unrolls_sread fuel s) (unrolls_fill_h fuel p s) Q.
Proof.
  induction fuel as [|k IH]; intros p b s Q; iIntros "[P K]"; cbn [unrolls_sread unrolls_fill_h]; [done|].
  iApply sim_bind. iApply sim_read_line. iIntros (i t s1) "I". rint j s2. rint f s3. rint n s4. destruct (n =? 1)%Z.
  - mal q "N". sput "P". iApply sim_tail. iApply (IH with "[-]"). iFrame "N". iIntros (l s') "L". iApply sim_ret. iApply "K". cbn [m_unrolls]. rewrite M_somewhere.
    iExists (i, q). cbn [un_iter un_jam un_factor m_str]. rewrite !M_beside !M_cell. iFrame.
  - sput "P". iApply sim_ret. iApply "K". cbn [m_unrolls]. rewrite M_somewhere.
    iExists (i, NULL). cbn [un_iter un_jam un_factor m_str]. rewrite !M_beside !M_cell M_nothing. iFrame. done.
Qed.
Lemma sim_unroll_sread s Q : (∀ p l s', M (m_unrolls p l) -∗ Q (l, s') (p, s')) ⊢ sim (osl_pluto_unroll_sread s) (osl_pluto_unroll_sread_h s) Q.
Proof.
  iIntros "K". unfold osl_pluto_unroll_sread, osl_pluto_unroll_sread_h. rint n s1. destruct (n =? 1)%Z.
  - mal p "P". rewrite -(bind_ok (unrolls_sread _ _)). iApply sim_bind. iApply sim_unrolls_fill. iFrame "P". iIntros (l s') "L". iApply sim_ret. by iApply "K".
  - iApply sim_ret. iApply "K". cbn [m_unrolls]. by rewrite M_nothing.
Qed.
End READ.
