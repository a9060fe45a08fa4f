(** * SaveHeapProofs: reading the data of extensions *)
From stdpp Require Import gmap.
From iris.proofmode Require Import tactics.
From Coq Require Import ZifyBool ZifyNat.
From Verif Require Import Base IntModel VectorModel RelationModel UtilModel StringsModel RelTextModel ExtModel Spec RelSpec HeapModel HeapObjects HeapSpec HeapLogic HeapProofs ScopModel PayloadModel PayloadSpec PayloadProofs PayloadProofs2 PayloadProofs3 PayloadProofs4 PayloadProofs5 PayloadProofs6 MatModel MatSpec MatProofs MatProofs4 FullModel FullSpec FullProofs FullProofs2 PrintHeapModel PrintHeapProofs PrintHeapProofs3 ReadHeapProofs SaveHeapModel.
Local Open Scope string_scope.
Local Open Scope list_scope.
Local Open Scope Z_scope.
Local Open Scope bi_scope.
Notation loop := HeapModel.loop.
Notation cell := PayloadSpec.cell.

Section FETCH.
Context {cfg : config} {al : Allocator obj}.

(** The program [c] reads [x] and changes nothing. *)
Definition reads {A} (h : heap obj) (c : oprog A) (x : A) : Prop := ∀ Q : A → oprop, own h ∗ (own h -∗ Q x) ⊢ wp c Q.
Lemma reads_bind {A B} h (c : oprog A) x (k : A → oprog B) y : reads h c x → reads h (k x) y → reads h (v <== c ;; k v) y.
Proof. intros H1 H2 Q. iIntros "[H K]". iApply wp_bind. iApply H1. iFrame "H". iIntros "H". iApply H2. iFrame. Qed.
Lemma reads_ret {A} h (x : A) : reads h (ret x) x.
Proof. intros Q. iIntros "[H K]". iApply wp_ret. by iApply "K". Qed.
Lemma reads_block h p b : h !! p = Some (CBlock b) → reads h (get_block p) b.
Proof. intros E Q. by apply wp_get_block_own. Qed.
Lemma reads_str h p s : sees h (m_str p (Some s)) → reads h (get_str p) s.
Proof. intros [E _]%sees_cell Q. by apply wp_get_str_own. Qed.
Lemma reads_int h a l i x : sees h (m_ints a l) → l !! i = Some x → reads h (int_at a i) x.
Proof. intros E Hi Q. by apply (wp_read_int h a l). Qed.
Lemma reads_ptr h a l i x : h !! a = Some (CBlock (BPtrs l)) → l !! i = Some (Some x) → reads h (ptr_at a i) x.
Proof. intros E Hi Q. by apply (wp_ptr_at_own h a l). Qed.
Lemma reads_fetch_str h p s : sees h (m_str p s) → reads h (fetch_str p) s.
Proof.
  intros Sp. unfold fetch_str. rewrite (m_str_null_own _ _ _ Sp). destruct s as [s|]; [|apply reads_ret].
  eapply reads_bind; [by apply reads_str|]. apply reads_ret.
Qed.
Lemma reads_n {A} h (f : nat → oprog A) (l : list A) : (∀ i x, l !! i = Some x → reads h (f i) x) →
  ∀ k i, (i + k = List.length l)%nat → reads h (fetch_n k i f) (drop i l).
Proof.
  intros Hf. induction k as [|k IH]; intros i Hi; cbn [fetch_n].
  - rewrite drop_ge; [apply reads_ret|lia].
  - destruct (lookup_ex l i) as [x Hx]; [lia|]. rewrite (drop_S _ _ _ Hx). eapply reads_bind; [by apply Hf|]. eapply reads_bind; [apply IH; lia|]. apply reads_ret.
Qed.
Lemma reads_array {A} h n (f : nat → oprog A) (l : list A) : n = Z.of_nat (List.length l) → (∀ i x, l !! i = Some x → reads h (f i) x) → reads h (fetch_array n f) l.
Proof. intros -> Hf. unfold fetch_array. rewrite Nat2Z.id. apply (reads_n h f l Hf (List.length l) 0). lia. Qed.
Lemma map_lookup {A B} (g : A → B) l i x : l !! i = Some x → List.map g l !! i = Some (g x).
Proof. intros H. change (List.map g l) with (g <$> l). by rewrite list_lookup_fmap H. Qed.
Lemma reads_strings h p x : sees h (m_strings p x) → reads h (fetch_strings p) x.
Proof.
  unfold fetch_strings. destruct x as [[l|]|]; cbn [m_strings]; intros Sx.
  - apply sees_somewhere in Sx as ([a ps] & [[Ep Hp]%sees_cell [[Ea Ha]%sees_cell Hs]%sees_beside]%sees_beside). rewrite (null_ne _ Hp). eapply reads_bind. { eapply reads_bind; [by apply reads_block|apply reads_ret]. }
    rewrite (null_ne _ Ha). eapply reads_bind. { eapply reads_bind; [by apply reads_block|apply reads_ret]. } eapply reads_bind; [|apply reads_ret].
    intros Q. pose proof (sees_strs_length _ _ _ Hs) as El. rewrite map_length in El. iIntros "H". iApply (wp_fetch_names h a ps l); [done|done|lia| |]. { rewrite map_length app_length. cbn. lia. } by rewrite drop_0.
  - apply sees_cell in Sx as [Ep Hp]. rewrite (null_ne _ Hp). eapply reads_bind. { eapply reads_bind; [by apply reads_block|apply reads_ret]. } cbn. apply reads_ret.
  - apply sees_nothing in Sx as ->. cbn. apply reads_ret.
Qed.
Ltac block E := eapply reads_bind; [eapply reads_bind; [exact (reads_block _ _ _ E)|apply reads_ret]|]; cbn beta iota.
Lemma reads_body h p x : sees h (m_body p x) → reads h (fetch_body p) x.
Proof.
  unfold fetch_body. destruct x as [x|]; cbn [m_body].
  - intros ([i e] & [[Ep Hp]%sees_cell [Si Se]%sees_beside]%sees_beside)%sees_somewhere. rewrite (null_ne _ Hp). block Ep.
    eapply reads_bind; [by apply reads_strings|]. eapply reads_bind; [by apply reads_strings|]. destruct x. apply reads_ret.
  - intros ->%sees_nothing. cbn. apply reads_ret.
Qed.
Lemma reads_extbody h p x : sees h (m_extbody p x) → reads h (fetch_extbody p) x.
Proof.
  intros ([[s l] b] & [[Ep _]%sees_cell [Si [Sl Sb]%sees_beside]%sees_beside]%sees_beside)%sees_somewhere. unfold fetch_extbody. block Ep.
  eapply reads_bind. { apply (reads_array _ _ _ (eb_access x)); [done|]. intros i [u v] Hi. eapply reads_bind; [eapply reads_int; [exact Si|exact (map_lookup fst _ _ _ Hi)]|]. eapply reads_bind; [eapply reads_int; [exact Sl|exact (map_lookup snd _ _ _ Hi)]|]. apply reads_ret. }
  eapply reads_bind; [by apply reads_body|]. destruct x. apply reads_ret.
Qed.
Lemma reads_arrays h p x : sees h (m_arrays p x) → reads h (fetch_arrays p) x.
Proof.
  intros ([[i n] ps] & [[Ep _]%sees_cell [Si St]%sees_beside]%sees_beside)%sees_somewhere. unfold fetch_arrays. block Ep.
  apply (reads_array _ _ _ x); [done|]. intros k [u v] Hk. eapply reads_bind; [eapply reads_int; [exact Si|exact (map_lookup fst _ _ _ Hk)]|].
  destruct (sees_table _ _ _ _ _ _ St (map_lookup _ _ _ _ Hk)) as (q & En & Eq & Sq). eapply reads_bind; [eapply reads_ptr; [exact En|by apply map_Some_lookup]|]. eapply reads_bind; [by apply reads_str|]. apply reads_ret.
Qed.
Lemma reads_comment h p x : sees h (m_comment p x) → reads h (fetch_comment p) x.
Proof. intros (t & [[Ep _]%sees_cell St]%sees_beside)%sees_somewhere. unfold fetch_comment. block Ep. by apply reads_fetch_str. Qed.
Lemma reads_scatnames h p x : sees h (m_scatnames p x) → reads h (fetch_scatnames p) x.
Proof. intros (t & [[Ep _]%sees_cell St]%sees_beside)%sees_somewhere. unfold fetch_scatnames. block Ep. by apply reads_strings. Qed.
Lemma reads_coordinates h p x : sees h (m_coordinates p x) → reads h (fetch_coordinates p) x.
Proof. intros (t & [[Ep _]%sees_cell St]%sees_beside)%sees_somewhere. unfold fetch_coordinates. block Ep. eapply reads_bind; [by apply reads_fetch_str|]. destruct x. apply reads_ret. Qed.
Lemma reads_scatinfos h p x : sees h (m_scatinfos p x) → reads h (fetch_scatinfos p) x.
Proof.
  intros ([[a b] c] & [[Ep _]%sees_cell [Sa [Sb Sc]%sees_beside]%sees_beside]%sees_beside)%sees_somewhere. unfold fetch_scatinfos. block Ep.
  apply (reads_array _ _ _ x); [done|]. intros k y Hk. eapply reads_bind; [eapply reads_int; [exact Sa|exact (map_lookup si_parallel _ _ _ Hk)]|].
  eapply reads_bind; [eapply reads_int; [exact Sb|exact (map_lookup si_permutable _ _ _ Hk)]|]. eapply reads_bind; [eapply reads_int; [exact Sc|exact (map_lookup si_type _ _ _ Hk)]|]. destruct y. apply reads_ret.
Qed.
Lemma reads_text h t ps x : sees h (m_text t ps x) → reads h (fetch_text t) x.
Proof.
  intros (Hn & Si & St)%sees_text. apply (reads_array _ _ _ x); [done|]. intros k [u v] Hk. eapply reads_bind; [eapply reads_int; [exact Si|exact (map_lookup fst _ _ _ Hk)]|].
  destruct (sees_table _ _ _ _ _ _ St (map_lookup snd _ _ _ Hk)) as (q & En & Eq & Sq). eapply reads_bind; [eapply reads_ptr; [exact En|by apply map_Some_lookup]|]. eapply reads_bind; [by apply reads_fetch_str|]. apply reads_ret.
Qed.
Lemma reads_annotation h p x : sees h (m_annotation p x) → reads h (fetch_annotation p) x.
Proof.
  intros ([[[t u] ps] qs] & [[Ep _]%sees_cell [Sa Sb]%sees_beside]%sees_beside)%sees_somewhere. unfold fetch_annotation. block Ep.
  eapply reads_bind; [by eapply reads_text|]. eapply reads_bind; [by eapply reads_text|]. destruct x. apply reads_ret.
Qed.
(** ** Chains *)
Lemma reads_chain {A} h (one : ptr → oprog (A * ptr)) (m : ptr → list A → mem) :
  (∀ p l, sees h (m p l) → isnull p = match l with [] => true | _ => false end) →
  (∀ p x l, sees h (m p (x :: l)) → ∃ n, reads h (one p) (x, n) ∧ sees h (m n l))%type →
  ∀ l p fuel, sees h (m p l) → (List.length l < fuel)%nat → reads h (fetch_chain one fuel p) l.
Proof.
  intros Hn Ho. induction l as [|x l IH]; intros p [|fuel] Sp Hf; try (cbn in Hf; lia); cbn [fetch_chain]; rewrite (Hn _ _ Sp).
  - apply reads_ret.
  - destruct (Ho _ _ _ Sp) as (n & H1 & H2). eapply reads_bind; [exact H1|]. cbn beta iota. eapply reads_bind; [apply (IH n fuel H2); cbn in Hf; lia|]. apply reads_ret.
Qed.
Lemma reads_list {A} h (one : ptr → oprog (A * ptr)) (m : ptr → list A → mem) p l :
  (∀ p l, sees h (m p l) → isnull p = match l with [] => true | _ => false end) →
  (∀ p x l, sees h (m p (x :: l)) → ∃ n, reads h (one p) (x, n) ∧ sees h (m n l))%type →
  (M (m p l) ⊢ size_ge (List.length l)) → sees h (m p l) → reads h (fetch_list one p) l.
Proof.
  intros Hn Ho Hs Sp Q. apply (wp_loop_on (List.length l)); [by eapply own_size|]. intros k Hk. by apply (reads_chain h one m Hn Ho).
Qed.
Lemma reads_regions h p l : sees h (m_regions p l) → reads h (fetch_list fetch_region p) l.
Proof.
  apply reads_list; [apply sees_regions_null| |apply m_regions_size]. intros q x l' (t & u & v & w & ps & qs & rs & ss & n & Ep & _ & S1 & S2 & S3 & S4 & S5)%sees_regions. exists n. split; [|done].
  unfold fetch_region. block Ep. do 4 (eapply reads_bind; [by eapply reads_text|]). destruct x. apply reads_ret.
Qed.
Lemma reads_loops h p l : sees h (m_loops p l) → reads h (fetch_list fetch_loop p) l.
Proof.
  apply reads_list; [apply sees_loops_null| |apply m_loops_size]. intros q x l' (i & s & pv & u & n & Ep & _ & S1 & S2 & S3 & S4 & S5)%sees_loops. exists n. split; [|done].
  unfold fetch_loop. block Ep. eapply reads_bind; [by eapply reads_fetch_str|]. eapply reads_bind. { apply (reads_array _ _ _ (lo_stmts x)); [done|]. intros k y Hk. by eapply reads_int. }
  eapply reads_bind; [by eapply reads_fetch_str|]. eapply reads_bind; [by eapply reads_fetch_str|]. destruct x. apply reads_ret.
Qed.
Lemma reads_unrolls h p l : sees h (m_unrolls p l) → reads h (fetch_list fetch_unroll p) l.
Proof.
  apply reads_list; [apply sees_unrolls_null| |apply m_unrolls_size]. intros q x l' (i & n & Ep & _ & S1 & S2)%sees_unrolls. exists n. split; [|done].
  unfold fetch_unroll. block Ep. eapply reads_bind; [by eapply reads_fetch_str|]. destruct x. apply reads_ret.
Qed.
(** ** Relations inside extensions *)
Lemma sees_union_cons h p r u : sees h (m_union p (r :: u)) → (p ≠ NULL ∧ ∃ n, reads h (read_part p) (r, n) ∧ sees h (m_union n u))%type.
Proof.
  intros (hs & Hs & H). cbn in H. destruct H as (m & n & hm & hn & Hp & (h1 & -> & D1 & h2 & -> & D2 & h3 & -> & D3 & ->) & Hm & Hu). split; [done|]. exists n.
  assert (({[p := CRel (header r) m n]} : heap obj) ∪ hm ⊆ h) as Hsub. { etrans; [|exact Hs]. apply map_union_mono_l. apply map_union_subseteq_l. }
  assert (h !! p = Some (CRel (header r) m n)) as Ep. { eapply lookup_weaken; [|exact Hsub]. apply lookup_union_Some_l, lookup_singleton. }
  assert (hm ⊆ h) as Hmh. { etrans; [|exact Hs]. etrans; [|apply map_union_subseteq_r; done]. apply map_union_subseteq_l. }
  split.
  - intros Q. iIntros "[H K]". unfold read_part, get_rel. iApply wp_bind. iApply wp_bind. iApply wp_load_own; [exact Ep|]. iFrame "H". iIntros "H". iApply wp_ret. unfold stores_matrix in Hm. destruct (_ || _).
    + destruct Hm as (_ & -> & Er). cbn. iApply wp_bind. iApply wp_ret. iApply wp_ret. rewrite -Er. change (with_m _ _ _ _) with (with_m (header r) (nrows (header r)) (ncols (header r)) (rm r)). rewrite header_with_m. by iApply "K".
    + destruct Hm as [-> Hm]. rewrite (null_ne _ Hm). iApply wp_bind. unfold get_mat. iApply wp_bind. iApply wp_load_own; [eapply lookup_weaken; [apply lookup_singleton|exact Hmh]|]. iFrame "H". iIntros "H". iApply wp_ret. iApply wp_ret. rewrite header_with_m. by iApply "K".
  - exists hn. split; [|done]. etrans; [|exact Hs]. etrans; [|apply map_union_subseteq_r; done]. etrans; [|apply map_union_subseteq_r; done]. apply map_union_subseteq_l.
Qed.
Lemma sees_union_null h p u : sees h (m_union p u) → isnull p = match u with [] => true | _ => false end.
Proof. destruct u as [|r u]; [by intros (hs & _ & _ & ->)|]. intros [Hp _]%sees_union_cons. by apply null_ne. Qed.
Lemma m_union_size p u : M (m_union p u) ⊢ size_ge (List.length u).
Proof. unfold m_union. rewrite M_union. apply runion_size. Qed.
Lemma reads_union h p u : sees h (m_union p u) → reads h (fetch_runion p) u.
Proof. apply reads_list; [apply sees_union_null| |apply m_union_size]. by intros q x l [_ ?]%sees_union_cons. Qed.
Lemma reads_dependences h p l : sees h (m_dependences p l) → reads h (fetch_list fetch_dependence p) l.
Proof.
  apply reads_list; [apply sees_dependences_null| |apply m_dependences_size]. intros q x l' (d & n & Ep & _ & S1 & S2)%sees_dependences. exists n. split; [|done].
  unfold fetch_dependence. block Ep. eapply reads_bind; [by apply reads_union|]. destruct x. cbn. apply reads_ret.
Qed.

(** ** The text of one extension *)
Definition maybe_str (o : option str) (q : ptr) : oprop := match o with None => <affine> ⌜q = NULL⌝ | Some t => q ↦ CBlock (BStr t) end.
Lemma reads_data h p d : sees h (m_data p d) → data_kind d ≠ KSymbols →
  ((isnull p = true ∧ null_sprint (data_kind d) = data_sprint (data_kind d) d) ∨ (isnull p = false ∧ reads h (fetch_data (data_kind d) p) d))%type.
Proof.
  intros Sd Hk. destruct d as [s|bd|l|t|t| |x|x|x|x|x|l|l|x|l|l|l|x]; cbn [m_data data_kind fetch_data] in *; try done.
  - right. pose proof Sd as Sd'. split. { destruct s as [l|]; cbn [m_strings] in Sd'; [apply sees_somewhere in Sd' as ([a ps] & [[_ Hp]%sees_cell _]%sees_beside)|apply sees_cell in Sd' as [_ Hp]]; by apply null_ne. }
    eapply reads_bind; [by apply reads_strings|]. apply reads_ret.
  - right. pose proof Sd as Sd'. split. { cbn [m_body] in Sd'. apply sees_somewhere in Sd' as ([a ps] & [[_ Hp]%sees_cell _]%sees_beside). by apply null_ne. }
    eapply reads_bind; [by apply reads_body|]. apply reads_ret.
  - pose proof (sees_union_null _ _ _ Sd) as E. destruct l as [|r l]; [left; done|right; split; [done|]]. eapply reads_bind; [by apply reads_union|]. apply reads_ret.
  - right. pose proof Sd as Sd'. split. { apply sees_somewhere in Sd' as (a & [[_ Hp]%sees_cell _]%sees_beside). by apply null_ne. } eapply reads_bind; [by apply reads_comment|]. apply reads_ret.
  - right. pose proof Sd as Sd'. split. { apply sees_somewhere in Sd' as (a & [[_ Hp]%sees_cell _]%sees_beside). by apply null_ne. } eapply reads_bind; [by apply reads_comment|]. apply reads_ret.
  - right. apply sees_cell in Sd as [E Hp]. split; [by apply null_ne|]. eapply reads_bind; [by apply reads_block|]. apply reads_ret.
  - right. pose proof Sd as Sd'. split. { apply sees_somewhere in Sd' as ([[a b] c] & [[_ Hp]%sees_cell _]%sees_beside). by apply null_ne. } eapply reads_bind; [by apply reads_scatinfos|]. apply reads_ret.
  - right. pose proof Sd as Sd'. split. { apply sees_somewhere in Sd' as (a & [[_ Hp]%sees_cell _]%sees_beside). by apply null_ne. } eapply reads_bind; [by apply reads_scatnames|]. apply reads_ret.
  - right. pose proof Sd as Sd'. split. { apply sees_somewhere in Sd' as ([[x1 x2] x3] & [[_ Hp]%sees_cell _]%sees_beside). by apply null_ne. } eapply reads_bind; [by apply reads_arrays|]. apply reads_ret.
  - right. pose proof Sd as Sd'. split. { apply sees_somewhere in Sd' as (a & [[_ Hp]%sees_cell _]%sees_beside). by apply null_ne. } eapply reads_bind; [by apply reads_coordinates|]. apply reads_ret.
  - right. pose proof Sd as Sd'. split. { apply sees_somewhere in Sd' as (a & [[_ Hp]%sees_cell _]%sees_beside). by apply null_ne. } eapply reads_bind; [by apply reads_comment|]. apply reads_ret.
  - pose proof (sees_dependences_null _ _ _ Sd) as E. destruct l as [|r l]; [left; done|right; split; [done|]]. eapply reads_bind; [by apply reads_dependences|]. apply reads_ret.
  - right. pose proof Sd as Sd'. split. { apply sees_somewhere in Sd' as ([[x1 x2] x3] & [[_ Hp]%sees_cell _]%sees_beside). by apply null_ne. } eapply reads_bind; [by apply reads_extbody|]. apply reads_ret.
  - pose proof (sees_loops_null _ _ _ Sd) as E. destruct l as [|r l]; [left; done|right; split; [done|]]. eapply reads_bind; [by apply reads_loops|]. apply reads_ret.
  - pose proof (sees_unrolls_null _ _ _ Sd) as E. destruct l as [|r l]; [left; done|right; split; [done|]]. eapply reads_bind; [by apply reads_unrolls|]. apply reads_ret.
  - pose proof (sees_regions_null _ _ _ Sd) as E. destruct l as [|r l]; [left; done|right; split; [done|]]. eapply reads_bind; [by apply reads_regions|]. apply reads_ret.
  - right. pose proof Sd as Sd'. split. { apply sees_somewhere in Sd' as ([[[x1 x2] x3] x4] & [[_ Hp]%sees_cell _]%sees_beside). by apply null_ne. } eapply reads_bind; [by apply reads_annotation|]. apply reads_ret.
Qed.
Lemma sim_data_text h (v : res (option str)) (c : oprog (option str)) (Q : option str → ptr → oprop) :
  own h ∗ (own h -∗ sim v c (λ o o', own h ∗ <affine> ⌜o = o'⌝)) ∗ (∀ o q, own h -∗ maybe_str o q -∗ Q o q) ⊢
  sim v (o <== c ;; match o with None => ret NULL | Some t => malloc (BStr t) end) Q.
Proof.
  iIntros "(H & C & K)". rewrite -{2}(bind_ok v). iApply sim_bind. iApply sim_mono. iSplitL "H C"; [by iApply "C"|]. iIntros (o o') "_ [H <-]". destruct o as [t|].
  - iApply sim_ok. iApply wp_malloc. iIntros (q) "P". iApply ("K" with "H"). iFrame.
  - iApply sim_ret. by iApply ("K" with "H").
Qed.
Lemma sim_data_sprint h k p d (Q : option str → ptr → oprop) : sees h (m_content p d) → k ≠ KSymbols →
  own h ∗ (∀ o q, own h -∗ maybe_str o q -∗ Q o q) ⊢ sim (match d with None => null_sprint k | Some d => data_sprint k d end) (data_sprint_h k p) Q.
Proof.
  intros Sd Hk. destruct d as [d|]; cbn [m_content] in Sd.
  - destruct (decide (data_kind d = k)) as [<-|Hne]; [|iIntros "H"; iStopProof; destruct k, d; cbn [data_sprint data_kind] in *; try done; apply sim_UB].
    iIntros "[H K]". unfold data_sprint_h. iApply (sim_data_text h). iFrame "H K". iIntros "H". destruct (reads_data h p d Sd Hk) as [[-> E]|[-> R]].
    + rewrite E. iApply sim_lift. iIntros (o) "_". by iFrame.
    + iApply sim_heap. iApply R. iFrame "H". iIntros "H". iApply sim_lift. iIntros (o) "_". by iFrame.
  - apply sees_nothing in Sd as ->. iIntros "[H K]". unfold data_sprint_h. iApply (sim_data_text h). iFrame "H K". iIntros "H". cbn. iApply sim_lift. iIntros (o) "_". by iFrame.
Qed.
End FETCH.
