(** * ReadHeapProofs6: the readers in memory, statements and scops *)
From stdpp Require Import gmap.
From iris.proofmode Require Import tactics.
From Coq Require Import ZifyBool ZifyNat.
From Verif Require RelTextProofs.
From Verif Require Import Base Spec IntModel VectorModel RelationModel RelSpec UtilModel StringsModel RelTextModel ExtModel HeapModel HeapObjects HeapSpec HeapLogic HeapProofs PayloadModel PayloadSpec PayloadProofs PayloadProofs2 PayloadProofs3 PayloadProofs4 PayloadProofs5 PayloadProofs6 MatProofs MatProofs4 IrregHeapProofs ScopModel PropStrings FullModel FullSpec FullProofs FullProofs2 FullProofs4 FullProofs5 ReadSpec ReadProofs ReadProofs2 ReadProofs3 ReadHeapModel ReadHeapSpec ReadHeapProofs ReadHeapProofs2 ReadHeapProofs3 ReadHeapProofs4 ReadHeapProofs5.
Local Open Scope string_scope.
Local Open Scope list_scope.
Local Open Scope Z_scope.
Local Open Scope bi_scope.

Lemma count_eq l : count_present l = osl_relation_list_count l.
Proof.
  unfold osl_relation_list_count. induction l as [|u l IH]; [done|]. cbn [count_present List.filter]. destruct u as [|r u]; [done|]. rewrite IH. unfold zlength. cbn [List.length]. lia.
Qed.
Lemma count_kept t l : osl_relation_list_count (osl_relation_list_filter l t) = zlength (osl_relation_list_filter l t).
Proof.
  unfold osl_relation_list_count, osl_relation_list_filter. induction l as [|u l IH]; [done|]. cbn [List.filter]. destruct u as [|r u]; [done|].
  destruct (list_match t (r :: u)); [|done]. cbn [List.filter]. unfold zlength in *. cbn [List.length]. lia.
Qed.

Section READ.
Context {cfg : config} {al : Allocator obj}.
Variable env : option str.

(** ** Lists of relations *)
Lemma sim_relations_fill k : ∀ p e n f pr Q, p ↦ CList e n ∗ (∀ l f', rlist p l -∗ Q (l, f') f') ⊢ sim (read_relations (S k) f pr) (relations_fill_h (S k) p f pr) Q.
Proof.
  induction k as [|k IH]; intros p e n f pr Q; iIntros "[P K]"; cbn [read_relations relations_fill_h]; iApply sim_bind; iApply sim_relation_pread; iIntros (q u f1) "_ U";
    iApply sim_heap; iApply wp_store; iFrame "P"; iIntros "P".
  - iApply sim_ret. iApply "K". cbn [rlist]. iExists q, NULL. by iFrame.
  - iApply sim_heap. iApply wp_alloc. iIntros (nx) "N". iApply sim_heap. iApply wp_set_list_next. iFrame "P". iIntros "P". iApply sim_tail. iApply (IH nx with "[-]"). iFrame "N".
    iIntros (l f') "L". iApply sim_ret. iApply "K". cbn [rlist]. iExists q, nx. iFrame.
Qed.
Lemma sim_list_pread f pr Q : (∀ q l f', <affine> ⌜osl_relation_list_pread f pr = Ok (l, f')⌝ -∗ rlist q l -∗ Q (l, f') (q, f')) ⊢ sim (osl_relation_list_pread f pr) (osl_relation_list_pread_h f pr) Q.
Proof.
  iIntros "K". iApply sim_eq. unfold osl_relation_list_pread at 1. unfold osl_relation_list_pread_h. rint nb f1. destruct (Z.ltb_spec nb 0); [iStopProof; apply sim_err|].
  iApply sim_heap. iApply wp_alloc. iIntros (q) "P". destruct (Z.eqb_spec nb 0) as [->|Hn].
  - cbn [Z.to_nat relations_fill_h]. iApply sim_heap. iApply wp_ret. iApply sim_ret. iIntros "E". iApply ("K" with "E"). cbn [rlist runion]. iExists NULL, NULL. by iFrame.
  - destruct (Z.to_nat nb) as [|k] eqn:Ek; [lia|]. rewrite -(bind_ok (read_relations _ _ _)). iApply sim_bind. iApply (sim_relations_fill k). iFrame "P".
    iIntros (l f') "L". iApply sim_ret. iIntros "E". by iApply ("K" with "E").
Qed.

(** ** Statements *)
Lemma wp_take_elt q l (Q : _ → oprop) : (List.length l ≤ 1)%nat → rlist q l ∗ (∀ e, runion e (List.hd [] l) -∗ Q e) ⊢ wp (take_elt_h q) Q.
Proof.
  iIntros (Hl) "[L K]". unfold take_elt_h. destruct l as [|u [|? ?]]; cbn [rlist List.hd]; [| |cbn in Hl; lia].
  - iDestruct "L" as %->. rewrite isnull_null. iApply wp_ret. iApply "K". by cbn [runion].
  - iDestruct "L" as (e n) "(P & U & %En)". subst n. iDestruct (isnull_false with "P") as "[%E P]". rewrite E. iApply wp_bind. iApply wp_get_list. iFrame "P". iIntros "P".
    iApply wp_bind. iApply wp_store. iFrame "P". iIntros "P". iApply wp_bind. iApply (wp_list_free q [[]]). iSplitL "P".
    + cbn [rlist runion]. iExists NULL, NULL. by iFrame.
    + iApply wp_ret. by iApply "K".
Qed.
Lemma wp_filter p l t (Q : _ → oprop) : clone_list l = Ok l →
  rlist p l ∗ (∀ q, rlist p l -∗ rlist q (osl_relation_list_filter l t) -∗ Q q) ⊢ wp (osl_relation_list_filter_p p t) Q.
Proof.
  intros Hl. iIntros "[L K]". iDestruct (ex_intro with "L") as (h) "L". iApply (wp_list_filter h p l l); [done|]. iFrame "L". iIntros (q) "L N". iDestruct (ex_elim with "L") as "L". iApply ("K" with "L N").
Qed.
Lemma wp_count p l (Q : _ → oprop) : rlist p l ∗ (rlist p l -∗ Q (osl_relation_list_count l)) ⊢ wp (osl_relation_list_count_p p) Q.
Proof.
  iIntros "[L K]". iDestruct (ex_intro with "L") as (h) "L". iApply (wp_list_count h p l). iFrame "L". rewrite count_eq. iIntros "L". iDestruct (ex_elim with "L") as "L". iApply ("K" with "L").
Qed.
Lemma sim_dispatch p l Q : clone_list l = Ok l →
  rlist p l ∗ (∀ s d c a, runion d (st_domain s) -∗ runion c (st_scattering s) -∗ rlist a (st_access s) -∗ Q s (d, c, a)) ⊢
  sim (osl_statement_dispatch l) (osl_statement_dispatch_h p) Q.
Proof.
  intros Hl. iIntros "[L K]". unfold osl_statement_dispatch, osl_statement_dispatch_h.
  iApply sim_heap. iApply wp_filter; [done|]. iFrame "L". iIntros (dl) "L D". iApply sim_heap. iApply wp_count. iFrame "D". iIntros "D". cbv zeta.
  destruct (Z.ltb_spec 1 (osl_relation_list_count (osl_relation_list_filter l TYPE_DOMAIN))) as [H1|H1]; [iStopProof; apply sim_err|].
  iApply sim_heap. iApply (wp_take_elt dl (osl_relation_list_filter l TYPE_DOMAIN)); [rewrite count_kept in H1; unfold zlength in H1; lia|]. iFrame "D". iIntros (d) "D".
  iApply sim_heap. iApply wp_filter; [done|]. iFrame "L". iIntros (sl) "L S". iApply sim_heap. iApply wp_count. iFrame "S". iIntros "S".
  destruct (Z.ltb_spec 1 (osl_relation_list_count (osl_relation_list_filter l TYPE_SCATTERING))) as [H2|H2]; [iStopProof; apply sim_err|].
  iApply sim_heap. iApply (wp_take_elt sl (osl_relation_list_filter l TYPE_SCATTERING)); [rewrite count_kept in H2; unfold zlength in H2; lia|]. iFrame "S". iIntros (c) "S".
  iApply sim_heap. iApply wp_filter; [done|]. iFrame "L". iIntros (a) "L A". iApply sim_heap. iApply wp_count. iFrame "A". iIntros "A".
  iApply sim_heap. iApply wp_count. iFrame "L". iIntros "L". destruct (negb _); [iStopProof; apply sim_err|].
  iApply sim_heap. iApply wp_list_free. iFrame "L". iApply sim_ret. iApply ("K" $! (Statement _ _ _ []) with "D S A").
Qed.
Hypothesis Hcfg : config_ok cfg.
Lemma list_pread_clone f p l f' : supported cfg p → osl_relation_list_pread f p = Ok (l, f') → clone_list l = Ok l.
Proof.
  intros Hp E. pose proof (list_safe Hcfg p f Hp) as H. rewrite E in H. destruct H as [_ H]. cbn [fst] in H. apply (clone_list_same Hcfg).
  destruct H as [-> | H]; [by repeat constructor|]. revert H. apply Forall_impl. intros u [[_ H] _]. revert H. apply Forall_impl. by intros r [? _].
Qed.
Lemma sim_statement_pread f h reg R p Q : supported cfg p → sees h (m_ifaces reg R) →
  own h ∗ (∀ q s f', own h -∗ M (m_statement q s NULL) -∗ M (m_lost (lost_statement env R p f)) -∗ Q (s, f') (q, f')) ⊢
  sim (osl_statement_pread env f R p) (osl_statement_pread_h env f reg p) Q.
Proof.
  intros Hp Hs. iIntros "[H K]". unfold osl_statement_pread, osl_statement_pread_h. mal st "P". iApply sim_bind. iApply sim_list_pread. iIntros (li l f1) "%E1 L".
  iApply sim_bind. iApply sim_dispatch; [by apply list_pread_clone in E1|]. iFrame "L". iIntros (s d c a) "D C A". sput "P". iApply sim_read. iIntros ([nb f2]) "%E2".
  iApply sim_bind. iApply (sim_read_extensions env (Z.to_nat nb) h reg R Hs NULL []); [done|]. iFrame "H". iSplitR. { unfold m_generics. by rewrite M_chain_nil. }
  iIntros (e x f3) "H E L". sput "P". iApply sim_ret. iApply ("K" with "H [P D C A E]").
  - unfold m_statement. rewrite M_somewhere. iExists (d, c, a, e). cbn [st_domain st_scattering st_access st_ext]. rewrite !M_beside M_cell M_list. unfold m_union. rewrite !M_union. iFrame.
  - unfold lost_statement. rewrite E1. cbn [after]. by rewrite E2.
Qed.
Lemma statement_node q s n : M (m_statement q s n) ⊢ <affine> ⌜isnull q = false⌝ ∗ M (m_statement q s n).
Proof. apply one_null. apply statement_nonnull. Qed.
Lemma sim_statements_rest n h reg R p : supported cfg p → sees h (m_ifaces reg R) → ∀ first last x f Q, isnull first = false →
  own h ∗ M (m_statement last x NULL) ∗ (∀ l f', own h -∗ M (m_statements last (x :: l)) -∗ M (m_lost (lost_statements env n R p f)) -∗ Q (l, f') (first, f')) ⊢
  sim (read_statements env n R p f) (read_statements_h env n first last reg p f) Q.
Proof.
  intros Hp Hs. unfold m_statements. induction n as [|k IH]; intros first last x f Q Hf; cbn [read_statements read_statements_h lost_statements]; iIntros "(H & X & K)".
  - iApply sim_ret. iApply ("K" with "H [X]"); [by iApply M_chain_one|by iApply m_lost_nil].
  - iApply sim_bind. iApply sim_eq. iApply sim_statement_pread; [done..|]. iFrame "H". iIntros (q y f1) "H Y L %E". rewrite Hf. iApply sim_heap. iApply wp_set_stmt_next. iFrame "X". iIntros "X".
    iApply sim_tail. iApply IH; [done|]. iFrame "H Y". iIntros (l f2) "H Y L'". iApply sim_ret. iApply ("K" with "H [X Y]").
    + rewrite (M_chain_cons _ last). iExists q. iFrame.
    + rewrite E. cbn [after]. iApply m_lost_app. iFrame.
Qed.
Lemma sim_read_statements n h reg R p f Q : supported cfg p → sees h (m_ifaces reg R) →
  own h ∗ (∀ q l f', own h -∗ M (m_statements q l) -∗ M (m_lost (lost_statements env n R p f)) -∗ Q (l, f') (q, f')) ⊢
  sim (read_statements env n R p f) (read_statements_h env n NULL NULL reg p f) Q.
Proof.
  intros Hp Hs. iIntros "[H K]". destruct n as [|k]; cbn [read_statements read_statements_h lost_statements].
  - iApply sim_ret. iApply ("K" with "H []"); [|by iApply m_lost_nil]. unfold m_statements. by rewrite M_chain_nil.
  - iApply sim_bind. iApply sim_eq. iApply sim_statement_pread; [done..|]. iFrame "H". iIntros (q y f1) "H Y L %E". rewrite isnull_null. iDestruct (statement_node with "Y") as "[%Eq Y]".
    iApply sim_tail. iApply (sim_statements_rest k h reg R p Hp Hs q q y); [done|]. iFrame "H Y". iIntros (l f2) "H Y L'". iApply sim_ret. iApply ("K" with "H Y").
    rewrite E. cbn [after]. iApply m_lost_app. iFrame.
Qed.
(** ** Scops *)
Lemma sim_scop_pread_one f h reg R p Q : supported cfg p → registry_ok R → sees h (m_ifaces reg R) →
  own h ∗ (∀ q s f', own h -∗ M (m_scop q s NULL) -∗ M (m_lost (lost_scop env R p f)) -∗ Q (s, f') (q, f')) ⊢
  sim (scop_pread_one env R p f) (scop_pread_one_h env reg p f) Q.
Proof.
  intros Hp [Hu Hd] Hs. iIntros "[H K]". unfold scop_pread_one, scop_pread_one_h. mal scp "P". iApply sim_heap. iApply wp_interface_clone; [done..|]. iFrame "H". iIntros (rg) "H R".
  sput "P". iApply sim_bind. iApply sim_eq. iApply sim_strings_read. iIntros (la o f1) "S %E1". iApply sim_heap. iApply wp_strings_size. iFrame "S". iIntros "S".
  destruct o as [[[|t l]|]|]; cbn [count List.length Nat.eqb elems]; try (iStopProof; apply sim_err).
  cbn [m_strings]. iEval (rewrite M_somewhere) in "S". iDestruct "S" as ([a ps]) "S". iEval (rewrite !M_beside !M_cell) in "S". iDestruct "S" as "(S & A & X)".
  destruct ps as [|x ps]. { cbn [List.map m_strs]. iEval (rewrite M_nothing) in "X". by iDestruct "X" as %?. }
  cbn [List.map m_strs]. iEval (rewrite M_beside) in "X". iDestruct "X" as "[X Y]".
  iApply sim_heap. iApply wp_get_strings. iFrame "S". iIntros "S". iApply sim_heap. iApply (wp_ptr_at a (List.map Some ((x :: ps) ++ [NULL])) 0 x); [done|]. iFrame "A". iIntros "A".
  iEval (rewrite (M_own (m_str x (Some t)))) in "X". iDestruct "X" as (hx) "[%Hx X]". iApply sim_heap. iApply (wp_OSL_strdup hx x (Some t)); [by apply sees_self|]. iFrame "X". iIntros (lg) "X G".
  iDestruct (M_back _ _ Hx with "X") as "X".
  iApply sim_heap. iApply (wp_strings_free la (Some (Some (t :: l)))). iSplitL "S A X Y".
  { cbn [m_strings]. rewrite M_somewhere. iExists (a, x :: ps). cbn [List.map m_strs]. rewrite !M_beside. iFrame "X Y". rewrite !M_cell. iFrame. }
  sput "P". iApply sim_bind. iApply sim_relation_pread. iIntros (cx u f2) "%E2 U". sput "P". iApply sim_read. iIntros ([b f3]) "%E3".
  iEval (rewrite (M_own (m_ifaces rg R))) in "R". iDestruct "R" as (hr) "[%Hr R]". assert (Hsr : sees hr (m_ifaces rg R)) by by apply sees_self.
  iApply sim_bind. iApply sim_eq.
  iAssert (sim (if 0 <? b then osl_generic_read_one env f3 R else Ok (None, f3)) (if 0 <? b then osl_generic_read_one_h env f3 rg else ret (NULL, f3))
    (λ x y, ∃ g q f', <affine> ⌜x = (g, f') ∧ y = (q, f')⌝ ∗ own hr ∗ M (m_generics q (node g)) ∗ M (m_lost (if 0 <? b then lost_file_one env R f3 else [])))) with "[R]" as "Z".
  { destruct (0 <? b).
    - iApply sim_read_one; [done|]. iFrame "R". iIntros (q g f') "R G L". iExists g, q, f'. by iFrame.
    - iApply sim_ret. iExists None, NULL, f3. iSplitR; [done|]. iFrame "R". iSplitR; [unfold m_generics; cbn [node]; by rewrite M_chain_nil|by iApply m_lost_nil]. }
  iApply sim_mono. iFrame "Z". iIntros (xx yy) "_ (%g & %pq & %f4 & %Ez & R & Pa & L1) %E4". destruct Ez as [-> ->].
  sput "P". iApply sim_read. iIntros ([nb f5]) "%E5". iApply sim_bind. iApply sim_eq. iApply (sim_read_statements _ hr rg R); [done..|]. iFrame "R". iIntros (st sl f6) "R St L2 %E6".
  sput "P". iApply sim_bind. iApply (sim_generic_read env f6 hr rg R); [done|]. iFrame "R". iIntros (ex e f7) "R E L3". sput "P". iApply sim_ret. iApply ("K" with "H [-L1 L2 L3]").
  - iDestruct (M_back _ _ Hr with "R") as "R". unfold m_scop. rewrite M_somewhere. iExists (lg, cx, pq, st, rg, ex).
    cbn [sc_version sc_language sc_context sc_params sc_stmts sc_registry sc_ext]. rewrite M_beside M_cell. iFrame "P". rewrite M_beside. iFrame "G". rewrite M_beside. iSplitL "U"; [unfold m_union; by rewrite M_union|].
    rewrite M_beside. iFrame "Pa". rewrite M_beside. iFrame "St". rewrite M_beside. iFrame.
  - unfold lost_scop. rewrite E1. cbn [after]. rewrite E2. cbn [after]. rewrite E3 E4. cbn [after]. rewrite E5 E6. cbn [after]. iApply m_lost_app. iFrame "L1". iApply m_lost_app. iFrame.
Qed.
Lemma scop_node q s n : M (m_scop q s n) ⊢ <affine> ⌜isnull q = false⌝ ∗ M (m_scop q s n).
Proof. apply one_null. apply scop_nonnull. Qed.
Lemma sim_scops_rest fuel h reg R p : supported cfg p → registry_ok R → sees h (m_ifaces reg R) → ∀ first last x f Q,
  own h ∗ M (m_scop last x NULL) ∗ (∀ l f', own h -∗ M (m_scops last (x :: l)) -∗ M (m_lost (lost_scops env fuel R p f)) -∗ Q (l, f') (first, f')) ⊢
  sim (scops_pread env fuel R p f) (scops_pread_h env fuel reg p false first last f) Q.
Proof.
  intros Hp HR Hs. unfold m_scops. induction fuel as [|k IH]; intros first last x f Q; cbn [scops_pread scops_pread_h lost_scops]; iIntros "(H & X & K)"; [done|].
  unfold osl_util_read_uptotag_f. iApply sim_bind. iApply sim_read_upto_f. iIntros (tm o f1) "%E1 T". rewrite E1. destruct o as [t|]; cbn [m_str].
  2: { iEval (rewrite M_nothing) in "T". iDestruct "T" as %->. rewrite isnull_null. iApply sim_ret. iApply ("K" with "H [X]"); [by iApply M_chain_one|by iApply m_lost_nil]. }
  iEval (rewrite M_cell) in "T". iDestruct (isnull_false with "T") as "[%En T]". rewrite En. iApply sim_heap. iApply wp_free. iFrame "T".
  iApply sim_bind. iApply sim_eq. iApply sim_scop_pread_one; [done..|]. iFrame "H". iIntros (q y f2) "H Y L %E". iApply sim_heap. iApply wp_set_scop_next. iFrame "X". iIntros "X".
  iApply sim_tail. iApply IH. iFrame "H Y". iIntros (l f3) "H Y L'". iApply sim_ret. iApply ("K" with "H [X Y]").
  + rewrite (M_chain_cons _ last). iExists q. iFrame.
  + rewrite E. cbn [after]. iApply m_lost_app. iFrame.
Qed.
Lemma sim_scops fuel h reg R p f Q : supported cfg p → registry_ok R → sees h (m_ifaces reg R) →
  own h ∗ (∀ q l f', own h -∗ M (m_scops q l) -∗ M (m_lost (lost_scops env fuel R p f)) -∗ Q (l, f') (q, f')) ⊢
  sim (scops_pread env fuel R p f) (scops_pread_h env fuel reg p true NULL NULL f) Q.
Proof.
  intros Hp HR Hs. iIntros "[H K]". destruct fuel as [|k]; cbn [scops_pread scops_pread_h lost_scops]; [done|].
  unfold osl_util_read_uptotag_f. iApply sim_bind. iApply sim_read_upto_f. iIntros (tm o f1) "%E1 T". rewrite E1. destruct o as [t|]; cbn [m_str].
  2: { iEval (rewrite M_nothing) in "T". iDestruct "T" as %->. rewrite isnull_null. iApply sim_ret. iApply ("K" with "H []"); [|by iApply m_lost_nil]. unfold m_scops. by rewrite M_chain_nil. }
  iEval (rewrite M_cell) in "T". iDestruct (isnull_false with "T") as "[%En T]". rewrite En. iApply sim_heap. iApply wp_free. iFrame "T".
  iApply sim_bind. iApply sim_eq. iApply sim_scop_pread_one; [done..|]. iFrame "H". iIntros (q y f2) "H Y L %E". iApply sim_heap. iApply wp_ret.
  iApply sim_tail. iApply (sim_scops_rest k h reg R p Hp HR Hs q q y). iFrame "H Y". iIntros (l f3) "H Y L'". iApply sim_ret. iApply ("K" with "H Y").
  rewrite E. cbn [after]. iApply m_lost_app. iFrame.
Qed.
End READ.
