(** * PropUnionsMat: removing the unions of whole scops, with every coefficient in memory (C67)

    As in C30, but the matrix of a relation is one block of rows and every coefficient is a variable of its own in it, and the statements and scops
    carry all their extensions.  [pieces], [performs]: ListMatSpec.v; [kept_scop], [lost_scops], [m_stray]: UnionsMatSpec.v. *)
From stdpp Require Import gmap.
From iris.proofmode Require Import tactics.
From Coq Require Import ZifyBool ZifyNat.
From Verif Require PropScop PropHeap4.
From Verif Require Import Base Spec IntModel VectorModel RelationModel RelSpec RelationProofs2 UtilModel StringsModel RelTextModel ExtModel HeapModel HeapObjects HeapSpec HeapLogic HeapProofs PayloadModel PayloadSpec PayloadExists PayloadProofs PayloadProofs2 PayloadProofs5 PropHeap PropPayload MatModel MatSpec MatProofs MatProofs2 MatProofs3 MatProofs4 MatProofs5 MatProofs6 PropMat ScopModel CloneSpec PropClone FullModel FullSpec FullProofs FullExists PropFull SaveHeapModel SaveHeapSpec SaveHeapProofs PropSaveHeap2 ReadMatModel ReadMatProofs2 PropReadMat ListMatModel ListMatSpec ListMatProofs ListMatProofs2 PropListMat UnionsMatModel UnionsMatSpec UnionsMatProofs.
Local Open Scope string_scope.
Local Open Scope list_scope.
Local Open Scope Z_scope.

Section P.
Context (cfg : config) (al : Allocator obj).
(** What the function computes on every list of scops: the scops are left as they were; the result is in memory of its own, and so are the pieces
    of the statements that are not the last of their scop, to which nothing refers. *)
Theorem C67_remove_unions_exact : ∀ l h p, config_ok cfg → Forall (clonable_scop cfg) l → within h (m_scop_list p l) →
  runs_to (osl_scop_remove_unions_m p) h (λ q, exactly h ⋆ m_scop_list q (List.map kept_scop l) ⋆ m_stray (lost_scops l)).
Proof.
  intros l h p Hc Hl Hw. apply (runs_intro (own h) (λ q, own h ∗ M (m_scop_list q (List.map kept_scop l)) ∗ M (m_stray (lost_scops l))))%I; [|done|].
  - iIntros "O". iApply (wp_scop_remove_unions_m Hc h p l); [done|done|]. iFrame "O". iIntros (q) "O L X". iFrame.
  - intros q h' (h1 & h2 & -> & Hd & E1 & h3 & h4 & -> & Hd2 & E3 & E4). exists h1, (h3 ∪ h4). split_and!; [done|done|exact E1|]. exists h3, h4. done.
Qed.
Lemma pieces_free s : no_union s → pieces s = [s].
Proof. destruct s as [[|r [|r' d]] [|c [|c' u]] a e]; intros [H1 H2]; cbn in H1, H2; try lia; reflexivity. Qed.
Lemma last_only l : Forall no_union (removelast l) → Forall no_union (kept_pieces l) ∧
  (∀ it date par, Exists (λ x, performs x it date par) l ↔ Exists (λ x, performs x it date par) (kept_pieces l)) ∧ Forall (λ x, x = []) (lost_pieces l).
Proof.
  induction l as [|s l IH]; [intros _; split_and!; [constructor|done|constructor]|]. destruct l as [|y l].
  - intros _. cbn [kept_pieces lost_pieces]. destruct (C66_pieces s) as (_ & H1 & H2). split_and!; [|intros it date par; rewrite -(H2 it date par)|constructor].
    + revert H1. apply Forall_impl. intros x (A & B & _). by split.
    + split; [intros H; inversion H as [? ? H'|? ? H']; subst; [done|inversion H']|by constructor].
  - change (removelast (s :: y :: l)) with (s :: removelast (y :: l)). intros H. inversion H as [|? ? Hs Hr]; subst. destruct (IH Hr) as (H1 & H2 & H3).
    change (kept_pieces (s :: y :: l)) with (firstn 1 (pieces s) ++ kept_pieces (y :: l)). change (lost_pieces (s :: y :: l)) with (tl (pieces s) :: lost_pieces (y :: l)).
    rewrite (pieces_free s Hs). cbn [firstn app tl]. split_and!; [by constructor| |by constructor]. intros it date par. specialize (H2 it date par). rewrite (Exists_cons _ s (y :: l)) (Exists_cons _ s (kept_pieces _)). by rewrite H2.
Qed.
Lemma stray_none ls : Forall (λ x, x = []) ls → ∀ h, m_stray ls h → h = ∅.
Proof.
  induction 1 as [|x ls -> Hl IH]; cbn [m_stray]; intros h.
  - by intros [-> _].
  - intros (h1 & h2 & -> & _ & (p & -> & _) & H2). rewrite (IH h2 H2). by rewrite left_id_L.
Qed.
Lemma lost_none l : Forall (λ s, Forall no_union (removelast (sc_stmts s))) l → Forall (λ x, x = []) (lost_scops l).
Proof. induction 1 as [|s l Hs Hl IH]; [constructor|]. unfold lost_scops. cbn [flat_map]. apply Forall_app. split; [by apply last_only|exact IH]. Qed.
Lemma kept_typed s : typed_scop s → typed_scop (kept_scop s).
Proof.
  intros (H1 & H2 & H3). split; [exact H1|]. split; [exact H2|]. cbn [kept_scop sc_stmts]. revert H3. generalize (sc_stmts s). clear. intros l.
  assert (∀ s, typed_generics (st_ext s) → Forall (λ x, typed_generics (st_ext x)) (pieces s)) as Hp.
  { intros s Hs. apply List.Forall_forall. intros x (d & _ & (sc & <- & _)%in_map_iff)%in_flat_map. exact Hs. }
  induction l as [|s l IH]; [done|]. intros H. inversion H as [|? ? Hs Hl]; subst. destruct l as [|y l]; [exact (Hp s Hs)|].
  change (kept_pieces (s :: y :: l)) with (firstn 1 (pieces s) ++ kept_pieces (y :: l)). apply Forall_app. split; [|by apply IH].
  specialize (Hp s Hs). destruct (pieces s) as [|z zs]; [constructor|]. inversion Hp; subst. cbn [firstn]. constructor; [assumption|constructor].
Qed.
(** The promise, for the scops where only the last statement has unions: the result has no unions, executes the same iterations at the same dates,
    and nothing is lost: releasing the result gives the memory back as it was. *)
Theorem C67_remove_unions_last : ∀ l h p, config_ok cfg → Forall (clonable_scop cfg) l → Forall (λ s, Forall no_union (removelast (sc_stmts s))) l → within h (m_scop_list p l) →
  runs_to (osl_scop_remove_unions_m p) h (λ q h', ∃ r, (exactly h ⋆ m_scop_list q r) h' ∧
    Forall2 (λ s s', Forall no_union (sc_stmts s') ∧ s' = Scop (sc_version s) (sc_language s) (sc_context s) (sc_params s) (sc_stmts s') (sc_registry s) (sc_ext s) ∧
      ∀ it date par, Exists (λ x, performs x it date par) (sc_stmts s) ↔ Exists (λ x, performs x it date par) (sc_stmts s')) l r) ∧
  runs_to (q <== osl_scop_remove_unions_m p ;; osl_scop_free_m q) h (λ _ h', h' = h).
Proof.
  intros l h p Hc Hl Hf Hw. pose proof (C67_remove_unions_exact l h p Hc Hl Hw) as R.
  assert (runs_to (osl_scop_remove_unions_m p) h (λ q, exactly h ⋆ m_scop_list q (List.map kept_scop l))) as R2.
  { eapply runs_weaken; [exact R|]. intros q h' (h1 & h2 & -> & Hd & E1 & h3 & h4 & -> & Hd2 & E3 & E4). apply stray_none in E4 as ->; [|by apply lost_none].
    rewrite right_id_L in Hd |- *. by exists h1, h3. }
  split.
  - eapply runs_weaken; [exact R2|]. intros q h' H. exists (List.map kept_scop l). split; [exact H|]. clear -Hf. induction Hf as [|s l Hs Hl IH]; cbn [List.map]; constructor; [|exact IH].
    destruct (last_only _ Hs) as (H1 & H2 & _). split; [exact H1|]. split; [done|exact H2].
  - eapply runs_bind; [exact R2|]. intros q h' (h1 & h2 & -> & Hd & E1 & E2). change (h1 = h) in E1. subst h1. rewrite map_union_comm; [|done].
    eapply runs_frame; [by apply map_disjoint_sym| |].
    + apply (C65_scop_free cfg (List.map kept_scop l)); [|exact E2]. apply List.Forall_forall. intros x (s & <- & Hs)%in_map_iff. apply kept_typed, (scop_typed cfg).
      rewrite List.Forall_forall in Hl. by apply Hl.
    + intros [] h' -> _. by rewrite left_id_L.
Qed.
End P.
(** The promise in general is false: of a scop with two statements, the first of which executes the iterations 0 and 1, the iteration 1 is not
    executed any more, and its piece is still allocated after both scops have been released. *)
Definition lost_scop_m : scop :=
  Scop 1 None [] [] [Statement [PropHeap4.lostr 0; PropHeap4.lostr 1] [] [] []; Statement [PropHeap4.lostr 5] [] [] []] [] [].
Lemma lost_clonable : clonable_scop lp64_debug lost_scop_m.
Proof.
  destruct PropHeap4.lost_scop_wf as (_ & _ & Hs & _). cbn [PropHeap4.lost_scop HeapSpec.sc_statement] in Hs.
  inversion Hs as [|? ? (H1 & _) Hs2]; subst. inversion Hs2 as [|? ? (H2 & _) _]; subst. cbn in H1, H2.
  split; [constructor|]. split; [split; constructor|]. split; [|split; split; constructor].
  constructor; [|constructor; [|constructor]]; split_and!; cbn [st_domain st_scattering st_access st_ext]; try exact H1; try exact H2; try (split; constructor); constructor.
Qed.
Theorem C67_remove_unions_refuted : ∃ s it, clonable_scop lp64_debug s ∧ Exists (λ x, performs x it [] []) (sc_stmts s) ∧
  ∀ (al : Allocator obj) h p, within h (@m_scop_list lp64_debug p [s]) →
    runs_to (@osl_scop_remove_unions_m lp64_debug al p) h (λ q h', ∃ s' t, (exactly h ⋆ @m_scop_list lp64_debug q [s'] ⋆ @m_stray lp64_debug [[t]]) h' ∧
      ¬ Exists (λ x, performs x it [] []) (sc_stmts s') ∧ performs t it [] []).
Proof.
  exists lost_scop_m, [1]. split; [exact lost_clonable|]. split.
  - constructor. unfold performs. cbn [st_domain st_scattering]. split; [|by left]. right. apply Exists_cons_tl. constructor. by apply PropHeap4.lostr_relates.
  - intros al h p H. eapply runs_weaken; [apply (C67_remove_unions_exact lp64_debug al [lost_scop_m] h p); [by right|by constructor; [exact lost_clonable|constructor]|done]|].
    intros q h' H'. exists (kept_scop lost_scop_m), (Statement [PropHeap4.lostr 1] [] [] []). split; [exact H'|]. split.
    + change (sc_stmts (kept_scop lost_scop_m)) with [Statement [PropHeap4.lostr 0] [] [] []; Statement [PropHeap4.lostr 5] [] [] []]. intros E.
      assert (∀ k, k ≠ 1 → ¬ performs (Statement [PropHeap4.lostr k] [] [] []) [1] [] []) as N.
      { intros k Hk [[?|X] _]; [done|]. inversion X as [? ? Y|? ? Y]; subst; [apply PropHeap4.lostr_relates in Y; lia|inversion Y]. }
      inversion E as [? ? X|? ? E2]; subst; [by apply (N 0) in X|]. inversion E2 as [? ? X|? ? E3]; subst; [by apply (N 5) in X|inversion E3].
    + split; [|by left]. right. constructor. by apply PropHeap4.lostr_relates.
Qed.
Definition C67_theorems := (@C67_remove_unions_exact, @C67_remove_unions_last, @C67_remove_unions_refuted).
Print Assumptions C67_theorems.

(** The hypotheses hold: such scops are in memory, and a scop whose last statement alone has unions. *)
Example C67_witness : ∃ h p, @m_scop_list lp64_debug p [lost_scop_m] h ∧ Forall (clonable_scop lp64_debug) [lost_scop_m].
Proof.
  assert (Forall (clonable_scop lp64_debug) [lost_scop_m]) as H by (constructor; [exact lost_clonable|constructor]).
  destruct (C64_values_exist lp64_debug [lost_scop_m] ∅ H) as (h & p & _ & X). by exists h, p.
Qed.
Definition last_scop_m : scop :=
  Scop 1 (Some (lit "C")) [] [] [Statement [PropHeap4.lostr 5] [] [] []; Statement [PropHeap4.lostr 0; PropHeap4.lostr 1] [] [] []] [] [].
Example C67_last_witness : Forall no_union (removelast (sc_stmts last_scop_m)) ∧ List.length (sc_stmts (kept_scop last_scop_m)) = 3%nat ∧
  ∃ h p, @m_scop_list lp64_debug p [last_scop_m] h ∧ Forall (clonable_scop lp64_debug) [last_scop_m].
Proof.
  split; [constructor; [split; cbn; lia|constructor]|]. split; [reflexivity|].
  assert (Forall (clonable_scop lp64_debug) [last_scop_m]) as H.
  { constructor; [|constructor]. destruct lost_clonable as (A & B & C & D). split; [exact A|]. split; [exact B|]. split; [|exact D].
    cbn [lost_scop_m last_scop_m sc_stmts] in C |- *. inversion C as [|? ? C1 C2]; subst. inversion C2; subst. constructor; [assumption|]. constructor; [assumption|constructor]. }
  destruct (C64_values_exist lp64_debug [last_scop_m] ∅ H) as (h & p & _ & X). by exists h, p.
Qed.
(** On concrete memory: relations are written in memory by the reader of texts; [d] in the first statement or in the last one. *)
Definition unions_run (first : bool) : oprog unit :=
  let rd k := osl_relation_psread_m (cfg := lp64_debug) (al := bump_allocator obj) (if (k =? 2) then lit "DOMAIN
2
1 3 1 0 0 0
0 1 0
1 3 1 0 0 0
0 1 -1
" else lit "DOMAIN
1 3 1 0 0 0
0 1 -5
") 64 in
  '(d, _) <== rd (if first then 2 else 1) ;;
  '(e, _) <== rd (if first then 1 else 2) ;;
  t <== osl_statement_malloc_f (al := bump_allocator obj) ;;
  put t (BStmt e NULL NULL NULL NULL) ;;==
  s <== osl_statement_malloc_f (al := bump_allocator obj) ;;
  put s (BStmt d NULL NULL NULL t) ;;==
  x <== osl_scop_malloc_f (al := bump_allocator obj) ;;
  put x (BScop 1 NULL NULL NULL s NULL NULL NULL) ;;==
  q <== osl_scop_remove_unions_m (cfg := lp64_debug) (al := bump_allocator obj) x ;;
  osl_scop_free_m (cfg := lp64_debug) x ;;==
  osl_scop_free_m (cfg := lp64_debug) q.
Example C67_run : match unions_run false ∅ with Ok (_, h) => map_to_list h = [] | _ => False end ∧
  match unions_run true ∅ with Ok (_, h) => List.length (map_to_list h) ≠ 0%nat | _ => False end.
Proof. split; vm_compute; [reflexivity|discriminate]. Qed.
