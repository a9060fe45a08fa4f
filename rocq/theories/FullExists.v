(** * FullExists: memories that hold given scops exist, beside any other memory *)
From stdpp Require Import gmap.
From iris.proofmode Require Import tactics.
From Coq Require Import ZifyBool ZifyNat.
From Verif Require Import Base VectorModel RelationModel RelSpec StringsModel ExtModel HeapModel HeapObjects HeapSpec HeapLogic HeapProofs PayloadModel PayloadSpec PayloadProofs PayloadProofs2 PayloadProofs6 PayloadProofs7 PropHeap PayloadExists ScopModel CloneSpec PropClone FullModel FullSpec FullProofs FullProofs2 FullProofs3 FullProofs4.
Local Open Scope string_scope.
Local Open Scope list_scope.
Local Open Scope Z_scope.
Local Open Scope bi_scope.

Lemma avail_dep {A} (S : ptr → A → oprop) (R : A → oprop) : avail (∃ x, R x)%I → (∀ x, avail (∃ p, S p x)%I) → avail (∃ p x, S p x ∗ R x)%I.
Proof.
  intros HR HS hf. destruct (HR hf) as (h2 & Hd2 & x & H2). destruct (HS x (h2 ∪ hf)) as (h1 & Hd1 & p & H1).
  exists (h1 ∪ h2). split; [solve_map_disjoint|]. exists p, x. apply sep_intro; [solve_map_disjoint|done|done].
Qed.
Lemma avail_chain {A} (one : ptr → A → ptr → mem) l : Forall (λ x, ∀ n, avail (∃ p, M (one p x n))%I)%type l → avail (∃ p, M (m_chain one p l))%I.
Proof.
  induction 1 as [|x l Hx Hl IH].
  - eapply avail_mono; [|exact avail_emp]. iIntros "_". iExists NULL. by rewrite M_chain_nil.
  - eapply avail_mono; [|exact (avail_dep (λ p n, M (one p x n)) _ IH Hx)]. iIntros "(%p & %n & P & R)". iExists p. rewrite M_chain_cons. iExists n. iFrame.
Qed.
Lemma avail_iface i n : avail (∃ p, M (m_iface p i n))%I.
Proof.
  eapply avail_mono; [|exact (avail_block (λ u, BIface u (code (if_kind i)) n) _ (avail_str (if_uri i)))].
  iIntros "(%p & %u & P & U)". iExists p. unfold m_iface. rewrite M_somewhere. iExists u. rewrite M_beside M_cell. iFrame.
Qed.
Lemma avail_ifaces l : avail (∃ p, M (m_ifaces p l))%I.
Proof. apply avail_chain. apply Forall_forall. intros i _. apply avail_iface. Qed.
Lemma avail_nothing : avail (∃ p, M (nothing (p = NULL)))%I.
Proof. eapply avail_mono; [|exact avail_emp]. iIntros "_". iExists NULL. by rewrite M_nothing. Qed.
Lemma avail_iface_opt o : avail (∃ p, M (m_iface_opt p o))%I.
Proof. destruct o as [i|]; [apply avail_iface|apply avail_nothing]. Qed.
Definition flat (r : relation) : Prop := ((nrows r = 0 ∨ ncols r = 0) → rm r = [])%type.
Lemma wf_flat cfg u : Forall (wf_rel cfg) u → Forall flat u.
Proof. apply Forall_impl. intros r (_ & _ & _ & Hr & _). exact Hr. Qed.
Lemma avail_m_union u : Forall flat u → avail (∃ p, M (m_union p u))%I.
Proof. intros H. eapply avail_mono; [|exact (avail_union u H)]. iIntros "[%p P]". iExists p. by rewrite M_union. Qed.
Lemma avail_m_list l : Forall (Forall flat) l → avail (∃ p, M (m_list p l))%I.
Proof.
  intros H. eapply (avail_mono (∃ p, rlist p l)); [iIntros "[%p P]"; iExists p; by rewrite M_list|].
  induction H as [|u l Hu Hl IH]; cbn [rlist].
  - eapply avail_mono; [|exact avail_emp]. iIntros "_". iExists NULL. done.
  - eapply avail_mono; [|exact (avail_obj (λ z : ptr * ptr, CList z.1 z.2) _ (avail_pair _ _ (avail_union u Hu) IH))].
    iIntros "(%p & %z & P & A & R)". iExists p, z.1, z.2. iFrame.
Qed.


Lemma M_generic p i d n : M (m_generic p (Generic i d) n) ⊣⊢ ∃ z, p ↦ CBlock (BGen z.1 z.2 n) ∗ M (m_iface_opt z.2 i) ∗ M (m_content z.1 d).
Proof.
  change (m_generic p (Generic i d) n) with (somewhere (λ '(pd, pi), cell p (BGen pd pi n) ⋆ m_iface_opt pi i ⋆ m_content pd d)).
  rewrite M_somewhere. apply bi.exist_proper. intros [pd pi]. by rewrite !M_beside M_cell.
Qed.
Lemma M_symbol p t g d a b c e n : M (m_symbol p (Symbol t g d a b c e) n) ⊣⊢ ∃ z : ptr * (ptr * (ptr * ptr)), p ↦ CBlock (BSymbols t g d z.1 z.2.1 z.2.2.1 z.2.2.2 n) ∗
  M (m_generics z.1 a) ∗ M (m_generics z.2.1 b) ∗ M (m_generics z.2.2.1 c) ∗ M (m_generics z.2.2.2 e).
Proof.
  change (m_symbol p (Symbol t g d a b c e) n) with (somewhere (λ '(pa, pb, pc, pe), cell p (BSymbols t g d pa pb pc pe n) ⋆
        m_generics pa a ⋆ m_generics pb b ⋆ m_generics pc c ⋆ m_generics pe e)).
  rewrite M_somewhere. iSplit.
  - iIntros "(%z & H)". destruct z as [[[pa pb] pc] pe]. rewrite !M_beside M_cell. iExists (pa, (pb, (pc, pe))). iFrame.
  - iIntros "(%z & H)". destruct z as [pa [pb [pc pe]]]. iExists (pa, pb, pc, pe). rewrite !M_beside M_cell. iFrame.
Qed.
Section E.
Context (cfg : config).
Lemma avail_generics_if l : Forall (λ g, clonable_generic cfg g → ∀ n, avail (∃ p, M (m_generic p g n))%I)%type l → Forall (clonable_generic cfg) l → avail (∃ p, M (m_generics p l))%I.
Proof. intros H1 H2. apply avail_chain. induction H2; inversion H1; subst; constructor; auto. Qed.
Lemma avail_all :
  ((∀ d, ∀ k, clonable cfg k d → avail (∃ p, M (m_data p d))%I) ∧
  (∀ x, clonable_symbol cfg x → ∀ n, avail (∃ p, M (m_symbol p x n))%I) ∧
  (∀ g, clonable_generic cfg g → ∀ n, avail (∃ p, M (m_generic p g n))%I))%type.
Proof.
  set (P := (λ d, ∀ k, clonable cfg k d → avail (∃ p, M (m_data p d))%I)%type).
  set (Q := (λ x, clonable_symbol cfg x → ∀ n, avail (∃ p, M (m_symbol p x n))%I)%type).
  set (R := (λ g, clonable_generic cfg g → ∀ n, avail (∃ p, M (m_generic p g n))%I)%type).
  assert (∀ d, (∀ l, d ≠ DSymbols l) → P d) as H1.
  { intros d Hd k. destruct d; try (by destruct (Hd _ eq_refl)); destruct k; cbn [clonable]; try done; intros H; cbn [m_data].
    - apply avail_strings.
    - apply avail_body.
    - destruct H as [_ H]. by apply avail_m_union, (wf_flat cfg).
    - apply avail_comment.
    - apply avail_comment.
    - apply avail_null.
    - apply avail_scatinfos.
    - apply avail_scatnames.
    - apply avail_arrays.
    - apply avail_coordinates.
    - apply avail_comment.
    - destruct H as [_ H]. apply avail_dependences. revert H. apply Forall_impl. intros x Hx. by apply (wf_flat cfg).
    - apply avail_extbody.
    - apply avail_loops.
    - apply avail_unrolls.
    - apply avail_regions.
    - apply avail_annotation. }
  assert (∀ l, Forall Q l → P (DSymbols l)) as H2.
  { intros l Hl k. destruct k; cbn [clonable]; try done. intros H%clonable_symbols_eq. apply (avail_chain m_symbol).
    induction H; inversion Hl; subst; constructor; auto. }
  assert (∀ t g n a b c e, Forall R a → Forall R b → Forall R c → Forall R e → Q (Symbol t g n a b c e)) as H3.
  { intros t g d a b c e Ha Hb Hc He ([Ka _] & [Kb _] & [Kc _] & [Ke _])%clonable_symbol_eq n.
    eapply avail_mono; [|exact (avail_block (λ z : ptr * (ptr * (ptr * ptr)), BSymbols t g d z.1 z.2.1 z.2.2.1 z.2.2.2 n) _
      (avail_pair _ _ (avail_generics_if _ Ha Ka) (avail_pair _ _ (avail_generics_if _ Hb Kb) (avail_pair _ _ (avail_generics_if _ Hc Kc) (avail_generics_if _ He Ke)))))].
    iIntros "(%p & %z & H)". iExists p. rewrite M_symbol. iExists z. iFrame. }
  assert (∀ i, R (Generic i None)) as H4.
  { intros i H n. eapply avail_mono; [|exact (avail_block (λ z : ptr * ptr, BGen z.1 z.2 n) _ (avail_pair _ _ avail_nothing (avail_iface_opt i)))].
    iIntros "(%p & %z & P & A & B)". iExists p. rewrite M_generic. iExists z. iFrame. }
  assert (∀ i d, P d → R (Generic i (Some d))) as H5.
  { intros [[[u|] k]|] d Hd H n; try done. change (clonable cfg k d) in H.
    eapply avail_mono; [|exact (avail_block (λ z : ptr * ptr, BGen z.1 z.2 n) _ (avail_pair _ _ (Hd _ H) (avail_iface_opt (Some (Iface (Some u) k)))))].
    iIntros "(%p & %z & P & A & B)". iExists p. rewrite M_generic. iExists z. iFrame. }
  split; [|split].
  - by apply (edata_all P Q R).
  - by apply (symbol_all P Q R).
  - by apply (generic_all P Q R).
Qed.
Lemma avail_generics l : Forall (clonable_generic cfg) l → avail (∃ p, M (m_generics p l))%I.
Proof. intros H. apply avail_generics_if; [|done]. apply Forall_forall. intros g _. apply avail_all. Qed.
Lemma avail_symbols l : Forall (clonable_symbol cfg) l → avail (∃ p, M (m_symbols p l))%I.
Proof. intros H. apply avail_chain. revert H. apply Forall_impl. apply avail_all. Qed.
Lemma avail_statement s n : clonable_statement cfg s → avail (∃ p, M (m_statement p s n))%I.
Proof.
  intros (Hd & Hs & Ha & [He _]). assert (Forall (Forall flat) (st_access s)) as Ha' by (revert Ha; apply Forall_impl; apply wf_flat).
  eapply avail_mono; [|exact (avail_block (λ z : ptr * (ptr * (ptr * ptr)), BStmt z.1 z.2.1 z.2.2.1 z.2.2.2 n) _
    (avail_pair _ _ (avail_m_union _ (wf_flat _ _ Hd)) (avail_pair _ _ (avail_m_union _ (wf_flat _ _ Hs))
      (avail_pair _ _ (avail_m_list _ Ha') (avail_generics _ He)))))].
  iIntros "(%p & %z & H)". iExists p. unfold m_statement. rewrite M_somewhere. destruct z as [a [b [c e]]]. iExists (a, b, c, e). rewrite !M_beside M_cell. iFrame.
Qed.
Lemma avail_statements l : Forall (clonable_statement cfg) l → avail (∃ p, M (m_statements p l))%I.
Proof. intros H. apply avail_chain. revert H. apply Forall_impl. intros s Hs n. by apply avail_statement. Qed.
Lemma avail_scop s n : clonable_scop cfg s → avail (∃ p, M (m_scop p s n))%I.
Proof.
  intros (Hx & [Hp _] & Ht & _ & [He _]).
  eapply avail_mono; [|exact (avail_block (λ z : ptr * (ptr * (ptr * (ptr * (ptr * ptr)))), BScop (sc_version s) z.1 z.2.1 z.2.2.1 z.2.2.2.1 z.2.2.2.2.1 z.2.2.2.2.2 n) _
    (avail_pair _ _ (avail_str (sc_language s)) (avail_pair _ _ (avail_m_union _ (wf_flat _ _ Hx)) (avail_pair _ _ (avail_generics _ Hp) (avail_pair _ _ (avail_statements _ Ht)
      (avail_pair _ _ (avail_ifaces (sc_registry s)) (avail_generics _ He)))))))].
  iIntros "(%p & %z & H)". iExists p. unfold m_scop. rewrite M_somewhere. destruct z as [a [b [c [d [f e]]]]]. iExists (a, b, c, d, f, e). rewrite !M_beside M_cell. iFrame.
Qed.
Lemma avail_scops l : Forall (clonable_scop cfg) l → avail (∃ p, M (m_scops p l))%I.
Proof. intros H. apply avail_chain. revert H. apply Forall_impl. intros s Hs n. by apply avail_scop. Qed.
Lemma avail_names x : avail (∃ p, M (m_names p x))%I.
Proof.
  eapply avail_mono; [|exact (avail_block (λ z : ptr * (ptr * (ptr * (ptr * ptr))), BNames z.1 z.2.1 z.2.2.1 z.2.2.2.1 z.2.2.2.2) _
    (avail_pair _ _ (avail_strings (Some (n_params x))) (avail_pair _ _ (avail_strings (Some (n_iters x))) (avail_pair _ _ (avail_strings (Some (n_scatt x)))
      (avail_pair _ _ (avail_strings (Some (n_locals x))) (avail_strings (Some (n_arrays x))))))))].
  iIntros "(%p & %z & H)". iExists p. unfold m_names. rewrite M_somewhere. destruct z as [a [b [c [d e]]]]. iExists (a, b, c, d, e). rewrite !M_beside M_cell. iFrame.
Qed.

(** What can be copied can be freed. *)
Lemma typed_all :
  ((∀ d, ∀ k, clonable cfg k d → data_kind d = k ∧ typed_data d) ∧ (∀ x, clonable_symbol cfg x → typed_symbol x) ∧ (∀ g, clonable_generic cfg g → typed_generic g))%type.
Proof.
  set (P := (λ d, ∀ k, clonable cfg k d → data_kind d = k ∧ typed_data d)%type).
  set (Q := (λ x, clonable_symbol cfg x → typed_symbol x)%type).
  set (R := (λ g, clonable_generic cfg g → typed_generic g)%type).
  assert (∀ l, Forall R l → Forall (clonable_generic cfg) l → all_of typed_generic l) as H0.
  { intros l Hl H. apply all_of_Forall. induction H; inversion Hl; subst; constructor; auto. }
  assert (∀ d, (∀ l, d ≠ DSymbols l) → P d) as H1.
  { intros d Hd k. destruct d; try (by destruct (Hd _ eq_refl)); destruct k; cbn [clonable]; done. }
  assert (∀ l, Forall Q l → P (DSymbols l)) as H2.
  { intros l Hl k. destruct k; cbn [clonable]; try done. intros H%clonable_symbols_eq. split; [done|].
    change (all_of typed_symbol l). apply all_of_Forall. induction H; inversion Hl; subst; constructor; auto. }
  assert (∀ t g n a b c e, Forall R a → Forall R b → Forall R c → Forall R e → Q (Symbol t g n a b c e)) as H3.
  { intros t g d a b c e Ha Hb Hc He ([Ka _] & [Kb _] & [Kc _] & [Ke _])%clonable_symbol_eq.
    change (all_of typed_generic a ∧ all_of typed_generic b ∧ all_of typed_generic c ∧ all_of typed_generic e)%type. auto. }
  assert (∀ i, R (Generic i None)) as H4 by (intros [[[u|] k]|] H; done).
  assert (∀ i d, P d → R (Generic i (Some d))) as H5.
  { intros [[[u|] k]|] d Hd H; try done. change (clonable cfg k d) in H. exact (Hd _ H). }
  split; [|split].
  - by apply (edata_all P Q R).
  - by apply (symbol_all P Q R).
  - by apply (generic_all P Q R).
Qed.
Lemma generics_typed l : clonable_generics cfg l → typed_generics l.
Proof. intros [H _]. revert H. apply Forall_impl. apply typed_all. Qed.
Lemma scop_typed s : clonable_scop cfg s → typed_scop s.
Proof.
  intros (_ & Hp & Ht & _ & He). split_and!; [by apply generics_typed|by apply generics_typed|]. revert Ht. apply Forall_impl.
  intros t (_ & _ & _ & H). by apply generics_typed.
Qed.
End E.
