(** * PropListMat: unions and lists of relations, and the transformations of statements and scops, in memory with every coefficient (C66)

    As in C22, C30 and C40, but the matrix of a relation is one block of rows and every coefficient is a variable of its own in it, and the
    statements and scops carry all their extensions (MatSpec.v, SaveHeapSpec.v).  [runs_to]: HeapSpec.v; [agrees], [within]: MatSpec.v. *)
From stdpp Require Import gmap.
From iris.proofmode Require Import tactics.
From Coq Require Import ZifyBool ZifyNat.
From Verif Require PropScop PropScop2 SaveSpec.
From Verif Require Import Base Spec IntModel VectorModel RelationModel RelSpec RelationProofs2 UtilModel StringsModel RelTextModel ExtModel HeapModel HeapObjects HeapSpec HeapLogic HeapProofs PayloadModel PayloadSpec PayloadExists PayloadProofs PayloadProofs2 PayloadProofs5 PropHeap PropPayload MatModel MatSpec MatProofs MatProofs2 MatProofs3 MatProofs4 MatProofs5 MatProofs6 PropMat ScopModel CloneSpec PropClone FullModel FullSpec FullProofs FullExists PropFull SaveHeapModel SaveHeapSpec SaveHeapProofs PropSaveHeap2 ReadMatModel ReadMatProofs2 PropReadMat ListMatModel ListMatSpec ListMatProofs ListMatProofs2.
Local Open Scope string_scope.
Local Open Scope list_scope.
Local Open Scope Z_scope.

Section P.
Context (cfg : config) (al : Allocator obj).

(** ** Unions *)
Theorem C66_relation_add : ∀ u1 u2 h1 h2 p1 p2, m_relation p1 u1 h1 → m_relation p2 u2 h2 → h1 ##ₘ h2 →
  runs_to (osl_relation_add_m p1 p2) (h1 ∪ h2) (λ q h', q = (if Z.eqb p1 NULL then p2 else p1) ∧ m_relation q (u1 ++ u2) h').
Proof.
  intros u1 u2 h1 h2 p1 p2 H1 H2 Hd.
  apply (runs_intro (M (m_relation p1 u1) ∗ M (m_relation p2 u2)) (λ q, <affine> ⌜q = if Z.eqb p1 NULL then p2 else p1⌝ ∗ M (m_relation q (u1 ++ u2))))%I; [|by apply sep_intro|].
  - iIntros "[U V]". iApply wp_relation_add_m. iFrame "U V". iIntros "H". by iFrame.
  - intros q h' (? & h'' & -> & _ & [-> ->] & H). by rewrite left_id_L.
Qed.
(** The sources are left as they were; the result is a copy of them in memory of its own. *)
Theorem C66_relation_union_runs : ∀ u v h p q, within h (m_relation p u) → within h (m_relation q v) →
  agrees (osl_relation_union u v) (osl_relation_union_m p q) h (λ w x, exactly h ⋆ m_relation x w).
Proof. intros u v h p q Hu Hv. apply agrees_new. intros Q. by apply sim_relation_union. Qed.
Theorem C66_relation_union : ∀ u v h p q, config_ok cfg → wf_union cfg u → wf_union cfg v → within h (m_relation p u) → within h (m_relation q v) →
  runs_to (osl_relation_union_m p q) h (λ x, exactly h ⋆ m_relation x (u ++ v)).
Proof.
  intros u v h p q Hc Wu Wv Hu Hv. pose proof (C66_relation_union_runs u v h p q Hu Hv) as H. assert (osl_relation_union u v = Ok (u ++ v)) as E by (by apply union_ok). rewrite E in H. exact H.
Qed.
(** A part that is not the first: it is unlinked and released. *)
Theorem C66_remove_part : ∀ a u q r n v h p, (m_parts p (a :: u) q ⋆ m_part q r n ⋆ m_relation n v) h →
  runs_to (osl_relation_remove_part_m p q) h (λ p' h', p' = p ∧ m_relation p (a :: u ++ v) h').
Proof.
  intros a u q r n v h p (h1 & h23 & -> & Hd & H1 & h2 & h3 & -> & Hd2 & H2 & H3).
  apply (runs_intro (M (m_parts p (a :: u) q) ∗ M (m_part q r n) ∗ M (m_relation n v)) (λ p', <affine> ⌜p' = p⌝ ∗ M (m_relation p (a :: u ++ v))))%I.
  - iIntros "(U & P & V)". iApply wp_remove_part_m. iFrame "U P V". iIntros "U". by iFrame.
  - apply sep_intro; [done..|]. by apply sep_intro.
  - intros p' h' (? & h'' & -> & _ & [-> ->] & H). by rewrite left_id_L.
Qed.
Theorem C66_remove_part_absent : ∀ u h p part, within h (m_relation p u) → h !! part = None →
  runs_to (osl_relation_remove_part_m p part) h (λ p' h', p' = p ∧ h' = h).
Proof.
  intros u h p part Hu Hp. apply (runs_intro (own h) (λ p', <affine> ⌜p' = p⌝ ∗ own h))%I; [|done|].
  - iIntros "O". iApply (wp_remove_absent_m part h p u); [done|done|]. iFrame "O". iIntros "O". by iFrame.
  - intros p' h' (? & h'' & -> & _ & [-> ->] & H). rewrite left_id_L. split; [done|exact H].
Qed.
(** Removing the first part: the result is the rest, and the memory is as before: the part removed is still allocated, with its matrix, and
    nothing refers to it any more. *)
Theorem C66_remove_part_head_refuted : ∀ p r n h, within h (m_part p r n) →
  runs_to (osl_relation_remove_part_m p p) h (λ q h', q = n ∧ h' = h).
Proof.
  intros p r n h Hs. assert (isnull p = false) as Hz.
  { destruct Hs as (hs & _ & m & h1 & h2 & -> & _ & [_ Hz] & _). by apply Z.eqb_neq. }
  destruct (sees_part _ _ _ _ Hs) as (m & E & _).
  apply (runs_intro (own h) (λ q, <affine> ⌜q = n⌝ ∗ own h))%I; [|done|].
  - iIntros "O". unfold osl_relation_remove_part_m. rewrite Hz Z.eqb_refl. cbn [orb]. iApply wp_bind. iApply wp_get_part_own; [done|]. iFrame "O". iIntros "O". iApply wp_ret. by iFrame.
  - intros q h' (? & h'' & -> & _ & [-> ->] & H). rewrite left_id_L. split; [done|exact H].
Qed.

(** ** Lists *)
Theorem C66_list_add : ∀ l1 l2 h1 h2 p1 p2, m_relations p1 l1 h1 → m_relations p2 l2 h2 → h1 ##ₘ h2 →
  runs_to (osl_relation_list_add_p p1 p2) (h1 ∪ h2) (λ q h', m_relations q (l1 ++ l2) h').
Proof. intros *. apply (add_intro _ m_relations). intros Q. apply wp_list_add_m. Qed.
Theorem C66_list_concat : ∀ l1 l2 h p1 p2, config_ok cfg → Forall (wf_union cfg) l1 → Forall (wf_union cfg) l2 →
  within h (m_relations p1 l1) → within h (m_relations p2 l2) →
  runs_to (osl_relation_list_concat_m p1 p2) h (λ q, exactly h ⋆ m_relations q (l1 ++ l2)).
Proof.
  intros l1 l2 h p1 p2 Hc W1 W2 H1 H2. apply (runs_intro (own h) (λ q, own h ∗ M (m_relations q (l1 ++ l2))))%I; [|done|].
  - iIntros "O". iApply (wp_list_concat_m h p1 l1 p2 l2); [done..|]. iFrame "O". iIntros (x) "O L". iFrame.
  - intros q h' (h1 & h2 & -> & Hd & E1 & E2). by exists h1, h2.
Qed.
Theorem C66_list_push : ∀ l u h1 h2 p n, m_relations p l h1 → m_relations n [u] h2 → h1 ##ₘ h2 →
  runs_to (osl_relation_list_push_p p n) (h1 ∪ h2) (λ q h', q = n ∧ m_relations q (u :: l) h').
Proof.
  intros l u h1 h2 p n H1 H2 Hd. apply (runs_intro (M (m_relations p l) ∗ M (m_relations n [u])) (λ q, <affine> ⌜q = n⌝ ∗ M (m_relations q (u :: l))))%I; [|by apply sep_intro|].
  - iIntros "[L N]". iApply (wp_list_push_m p l n u). iFrame "L N". iIntros "L". by iFrame.
  - intros q h' (? & h'' & -> & _ & [-> ->] & H). by rewrite left_id_L.
Qed.
Theorem C66_list_pop : ∀ l h p, m_relations p l h →
  runs_to (osl_relation_list_pop_p p) h (λ '(t, q), match l with [] => nothing (t = NULL ∧ q = NULL) | u :: l' => nothing (t = p) ⋆ m_relations t [u] ⋆ m_relations q l' end).
Proof.
  intros l h p H. destruct l as [|u l].
  - destruct H as [-> ->]. intros hf Hf. exists (NULL, NULL), ∅. by rewrite left_id_L.
  - apply (runs_intro (M (m_relations p (u :: l))) (λ tq, <affine> ⌜tq.1 = p⌝ ∗ M (m_relations tq.1 [u]) ∗ M (m_relations tq.2 l)))%I; [|exact H|].
    + iIntros "L". iApply (wp_list_pop_m p u l). iFrame "L". iIntros (q) "T L". by iFrame.
    + intros [t q] h' (h1 & h2 & -> & Hd & [E2 E1] & E3). exists h1, h2. change (h1 = ∅) in E2. split_and!; [done|done|by split|exact E3].
Qed.
Theorem C66_list_dup : ∀ u l h p, config_ok cfg → wf_union cfg u → m_relations p (u :: l) h →
  runs_to (osl_relation_list_dup_m p) h (λ q h', q = p ∧ m_relations q (u :: u :: l) h').
Proof.
  intros u l h p Hc Hu H. apply (runs_intro (M (m_relations p (u :: l))) (λ q, <affine> ⌜q = p⌝ ∗ M (m_relations q (u :: u :: l))))%I; [|exact H|].
  - iIntros "L". iApply (wp_list_dup_m p u l); [done|done|]. iFrame "L". iIntros "L". by iFrame.
  - intros q h' (? & h'' & -> & _ & [-> ->] & H'). by rewrite left_id_L.
Qed.
Theorem C66_list_drop : ∀ l h p, m_relations p l h → runs_to (osl_relation_list_drop_m p) h (λ q h', m_relations q (tl l) h').
Proof.
  intros l h p H. apply (runs_intro (M (m_relations p l)) (λ q, M (m_relations q (tl l)))); [|exact H|by intros].
  iIntros "L". iApply (wp_list_drop_m p l). iFrame "L". iIntros (q) "$".
Qed.
Theorem C66_list_destroy : ∀ l h p, m_relations p l h → runs_to (osl_relation_list_destroy_m p) h (λ q h', q = NULL ∧ h' = ∅).
Proof.
  intros l h p H. apply (runs_intro (M (m_relations p l)) (λ q, <affine> ⌜q = NULL⌝))%I; [|exact H|by intros q h' [-> ?]].
  iIntros "L". iApply (wp_list_destroy_m p l). by iFrame "L".
Qed.
Theorem C66_list_set_type : ∀ t l h p, Forall (λ u, (List.length u ≤ 1)%nat) l → m_relations p l h →
  runs_to (osl_relation_list_set_type_m p t) h (λ _ h', m_relations p (map (map (λ r, with_type r t)) l) h').
Proof.
  intros t l h p Hl H. apply (runs_intro (M (m_relations p l)) (λ _, M (m_relations p (map (map (λ r, with_type r t)) l)))); [|exact H|by intros].
  iIntros "L". iApply (wp_list_set_type_m t p l). iFrame "L". iIntros "L". replace (map (map (λ r, with_type r t)) l) with (map (first_typed t) l); [done|].
  apply map_ext_Forall. revert Hl. apply List.Forall_impl. intros [|r [|r' u]] Hu; [done|done|cbn in Hu; lia].
Qed.
(** The other parts of a union keep the type they had. *)
Theorem C66_list_set_type_refuted : ∀ t r s u l h p, m_relations p ((r :: s :: u) :: l) h →
  runs_to (osl_relation_list_set_type_m p t) h (λ _ h', ∃ l', m_relations p ((with_type r t :: s :: u) :: l') h').
Proof.
  intros t r s u l h p H. apply (runs_intro (M (m_relations p ((r :: s :: u) :: l))) (λ _, M (m_relations p ((with_type r t :: s :: u) :: map (first_typed t) l)))); [|exact H|].
  - iIntros "L". iApply (wp_list_set_type_m t p _). iFrame "L". by iIntros "L".
  - intros _ h' H'. exists (map (first_typed t) l). exact H'.
Qed.

Lemma filter_restrictedm t l : restricted (of_type t) l (osl_relation_list_filter l t).
Proof.
  replace (osl_relation_list_filter l t) with (List.filter (keeps t) l); [apply filter_restricted|].
  unfold osl_relation_list_filter. induction l as [|u l IH]; [done|]. cbn [List.filter]. rewrite IH. by replace (list_match t u) with (keeps t u) by (destruct u; reflexivity).
Qed.
(** Histories: any sequence of calls on a list, where a call that makes a new list is followed by the release of the old one. *)
Definition call_m (c : list_call) (p : ptr) : oprog ptr :=
  match c with
  | CallDup => osl_relation_list_dup_m p
  | CallDrop => osl_relation_list_drop_m p
  | CallFilter type => q <== osl_relation_list_filter_m p type ;; osl_relation_list_free_m p ;;== ret q
  | CallPopPush => '(t, q) <== osl_relation_list_pop_p p ;; osl_relation_list_push_p q t
  | CallDouble => q <== osl_relation_list_clone_m p ;; osl_relation_list_add_p p q
  end.
Fixpoint calls_m (cs : list list_call) (p : ptr) : oprog ptr :=
  match cs with [] => ret p | c :: cs' => q <== call_m c p ;; calls_m cs' q end.
Theorem C66_histories : ∀ cs h p l, config_ok cfg → Forall (wf_union cfg) l → m_relations p l h →
  runs_to (calls_m cs p) h (λ q h', ∃ l', abstract_calls cs l l' ∧ Forall (wf_union cfg) l' ∧ m_relations q l' h') ∧
  runs_to (q <== calls_m cs p ;; osl_relation_list_free_m q) h (λ _ h', h' = ∅).
Proof.
  intros cs h p l Hc Hl H. assert (runs_to (calls_m cs p) h (λ q h', ∃ l', abstract_calls cs l l' ∧ Forall (wf_union cfg) l' ∧ m_relations q l' h')) as R.
  2:{ split; [exact R|]. eapply runs_bind; [exact R|]. intros q h' (l' & _ & _ & H'). by apply (C65_list_free cfg l'). }
  revert h p l Hl H. induction cs as [|c cs IH]; intros h p l Hl H; cbn [calls_m].
  { apply runs_ret. exists l. split; [constructor|done]. }
  eapply (runs_bind _ _ _ (λ q h', ∃ l', abstract_call c l l' ∧ Forall (wf_union cfg) l' ∧ m_relations q l' h')).
  - destruct c; cbn [call_m abstract_call].
    + destruct l as [|u l].
      * destruct H as [-> ->]. intros hf Hf. exists NULL, ∅. split; [by rewrite left_id_L|]. split; [done|]. by exists [].
      * inversion Hl; subst. eapply runs_weaken; [by apply (C66_list_dup u l)|]. intros q h' [-> Hs]. exists (u :: u :: l). split; [done|]. split; [by repeat constructor|done].
    + eapply runs_weaken; [by apply C66_list_drop|]. intros q h' Hs. exists (tl l). split; [done|]. split; [|done]. destruct l; [done|]. by inversion Hl.
    + eapply runs_bind; [by apply (C65_list_filter cfg al l type Hc Hl h p)|]. intros q h' (hc & (-> & Hd)%splits_2 & Hs).
      eapply (runs_bind _ _ _ (λ _ h', h' = hc)).
      * eapply runs_frame; [done|by apply (C65_list_free cfg l)|]. intros [] h' -> _. by rewrite left_id_L.
      * intros _ h' ->. apply runs_ret. exists (osl_relation_list_filter l type). pose proof (filter_restrictedm type l) as Hr. split; [done|]. split; [by eapply restricted_Forall|done].
    + eapply runs_bind; [by apply C66_list_pop|]. intros [t q] h' Ht. cbn beta iota in Ht |- *. destruct l as [|u l].
      * destruct Ht as [-> [-> ->]]. intros hf Hf. exists NULL, ∅. rewrite left_id_L. split; [done|]. split; [done|]. by exists [].
      * destruct Ht as (h0 & h1 & -> & Hd & [E ->] & h2 & h3 & -> & Hd2 & H2 & H3). change (h0 = ∅) in E. subst h0. rewrite left_id_L.
        rewrite map_union_comm //. eapply runs_weaken; [by apply (C66_list_push l u h3 h2 q p)|]. intros a h' [-> Hs]. by exists (u :: l).
    + eapply runs_bind; [by apply (C65_list_clone cfg al l Hc Hl h p)|]. intros q h' (hc & (-> & Hd)%splits_2 & Hs).
      eapply runs_weaken; [by apply C66_list_add|]. intros a h' Hs'. exists (l ++ l). split; [done|]. split; [by apply Forall_app|done].
  - intros q h' (l' & Ha & Hw & Hs). eapply runs_weaken; [by apply (IH h' q l')|].
    intros a h'' (l2 & Hcs & Hs2). exists l2. split; [by econstructor|done].
Qed.

(** ** Statements without unions *)
Lemma singly_exists (P : list relation → Prop) (R : relation → Prop) u : (∀ u, P u ↔ u = [] ∨ Exists R u) → P u ↔ Exists P (singly u).
Proof.
  intros HP. destruct u as [|r u]; cbn [singly].
  - split; [intros H; by constructor|]. intros H. inversion H as [? ? H'|? ? H']; subst; [done|inversion H'].
  - rewrite HP. split.
    + intros [?|H]; [done|]. apply List.Exists_exists in H as (x & Hx & HR). apply List.Exists_exists. exists [x].
      split; [by apply (in_map (λ r, [r]))|]. rewrite HP. right. by constructor.
    + intros H. right. apply List.Exists_exists in H as (x & (y & <- & Hy)%in_map_iff & Hp). apply HP in Hp as [?|Hp]; [done|].
      apply List.Exists_exists. exists y. split; [done|]. inversion Hp as [? ? H'|? ? H']; subst; [done|inversion H'].
Qed.
Lemma singly_length u : List.length (singly u) = part_count u.
Proof. destruct u as [|r u]; [done|]. unfold part_count. cbn [singly]. rewrite map_length. cbn [List.length]. lia. Qed.
Lemma singly_single u x : In x (singly u) → (List.length x ≤ 1)%nat.
Proof. destruct u as [|r u]; cbn [singly]; [intros [<-|[]]; cbn; lia|]. intros (y & <- & _)%in_map_iff. cbn. lia. Qed.
Theorem C66_pieces : ∀ s, splits_in s (pieces s).
Proof.
  intros s. unfold pieces. split; [|split].
  - rewrite -(singly_length (st_domain s)). induction (singly (st_domain s)) as [|d l IH]; [done|]. cbn [flat_map List.length].
    rewrite app_length map_length IH singly_length. lia.
  - apply List.Forall_forall. intros x (d & Hd & (sc & <- & Hs)%in_map_iff)%in_flat_map. cbn [st_domain st_scattering st_access st_ext].
    apply singly_single in Hd, Hs. done.
  - intros it date par. unfold performs.
    rewrite (singly_exists (λ d, d = [] ∨ relates_union d it [] par) (λ r, relates r it [] par)); [|done].
    rewrite (singly_exists (λ d, d = [] ∨ relates_union d date it par) (λ r, relates r date it par)); [|done].
    rewrite !List.Exists_exists. split.
    + intros [(d & Hd & Pd) (sc & Hs & Ps)]. exists (Statement d sc (st_access s) (st_ext s)). split; [|done].
      apply in_flat_map. exists d. split; [done|]. apply in_map_iff. by exists sc.
    + intros (x & (d & Hd & (sc & <- & Hs)%in_map_iff)%in_flat_map & Pd & Ps). split; [by exists d|by exists sc].
Qed.
(** The statement is left as it was, with those after it; the result is a list of statements in memory of its own. *)
Theorem C66_statement_remove_unions : ∀ s n h p, config_ok cfg → clonable_statement cfg s → within h (m_stmt p s n) →
  runs_to (osl_statement_remove_unions_m p) h (λ q h', ∃ l, splits_in s l ∧ (exactly h ⋆ m_stmts q l) h') ∧
  runs_to (q <== osl_statement_remove_unions_m p ;; osl_statement_free_m q) h (λ _ h', h' = h).
Proof.
  intros s n h p Hc Hs Hw. split.
  - apply (runs_intro (own h) (λ q, own h ∗ M (m_stmts q (pieces s))))%I; [|done|].
    + iIntros "O". iApply (wp_remove_unions Hc h p s n); [done|done|]. iFrame "O". iIntros (q) "O L". iFrame.
    + intros q h' (h1 & h2 & -> & Hd & E1 & E2). exists (pieces s). split; [apply C66_pieces|]. by exists h1, h2.
  - apply (runs_intro (own h) (λ _, own h))%I; [|done|by intros].
    iIntros "O". iApply wp_bind. iApply (wp_remove_unions Hc h p s n); [done|done|]. iFrame "O". iIntros (q) "O L". iApply wp_stmts_free; [|by iFrame].
    apply List.Forall_forall. intros x (d & _ & (sc & <- & _)%in_map_iff)%in_flat_map. cbn [st_ext]. destruct Hs as (_ & _ & _ & He). by apply (generics_typed cfg).
Qed.

(** ** The scatterings of a scop *)
Theorem C66_normalize_scattering_runs : ∀ s l h p, Forall (λ t, same_precision (st_scattering t)) (sc_stmts s) → m_scop_list p (s :: l) h →
  agrees (osl_scop_normalize_scattering (s :: l)) (osl_scop_normalize_scattering_m p) h (λ l' _, m_scop_list p l').
Proof. intros s l h p Hs H. apply (agrees_edit h (m_scop_list p) (s :: l)); [done|]. intros Q. by apply sim_normalize_scattering. Qed.
(** All the scatterings of the first scop of the list get the largest number of output dimensions, the schedules mean the same, and nothing else is changed. *)
Theorem C66_normalize_scattering : ∀ s l h p, config_ok cfg → Forall (λ t, PropScop.extensible cfg (st_scattering t)) (sc_stmts s) → m_scop_list p (s :: l) h →
  runs_to (osl_scop_normalize_scattering_m p) h (λ _ h', ∃ dim stmts,
    Forall2 (λ t t', st_domain t' = st_domain t ∧ st_access t' = st_access t ∧ st_ext t' = st_ext t ∧ PropScop.extended cfg dim (st_scattering t) (st_scattering t')) (sc_stmts s) stmts ∧
    (∀ t r, In t (sc_stmts s) → In r (st_scattering t) → nout r ≤ dim) ∧ (dim = 0 ∨ ∃ t r, In t (sc_stmts s) ∧ In r (st_scattering t) ∧ nout r = dim) ∧
    m_scop_list p (Scop (sc_version s) (sc_language s) (sc_context s) (sc_params s) stmts (sc_registry s) (sc_ext s) :: l) h').
Proof.
  intros s l h p Hc He H. destruct (PropScop.C16_normalize_scattering cfg s l Hc He) as (dim & stmts & E & F & B & D).
  pose proof (C66_normalize_scattering_runs s l h p) as R. rewrite E in R. cbn [agrees] in R. eapply runs_weaken; [apply R; [|done]|].
  - revert He. apply Forall_impl. intros t (_ & _ & X). unfold same_precision. destruct (st_scattering t) as [|r u]; [done|].
    apply List.Forall_forall. intros x Hx. apply X; [by right|by left].
  - intros ? h' H'. exists dim, stmts. done.
Qed.
End P.
(** The assumptions of all of them at once. *)
Definition C66_theorems :=
  (@C66_relation_add, @C66_relation_union_runs, @C66_relation_union, @C66_remove_part, @C66_remove_part_absent, @C66_remove_part_head_refuted,
   @C66_list_add, @C66_list_concat, @C66_list_push, @C66_list_pop, @C66_list_dup, @C66_list_drop, @C66_list_destroy, @C66_list_set_type, @C66_list_set_type_refuted, @C66_histories,
   @C66_pieces, @C66_statement_remove_unions, @C66_normalize_scattering_runs, @C66_normalize_scattering).
Print Assumptions C66_theorems.

(** The hypotheses hold: every list of well-formed unions and every statement that can be cloned is somewhere in memory, and so is a part in the
    middle of a union. *)
Theorem C66_values_exist : ∀ cfg u1 r u2 l s hf, wf_union cfg (u1 ++ r :: u2) → Forall (wf_union cfg) l → clonable_statement cfg s →
  (∃ h p q n, h ##ₘ hf ∧ (m_parts p u1 q ⋆ m_part q r n ⋆ m_relation n u2) h) ∧ (∃ h p, h ##ₘ hf ∧ m_relations p l h) ∧ (∃ h p, h ##ₘ hf ∧ m_stmt p s NULL h).
Proof.
  intros cfg u1 r u2 l s hf Hu Hl Hs. split_and!.
  - destruct (avail_relation cfg _ Hu hf) as (h & Hd & p & H). cut (∃ q n, (m_parts p u1 q ⋆ m_part q r n ⋆ m_relation n u2) h); [intros (q & n & X); by exists h, p, q, n|].
    clear Hd Hu. revert h p H. induction u1 as [|x u1 IH]; intros h p; cbn [app m_relation].
    + intros (n & H). exists p, n, ∅, h. rewrite left_id_L. split_and!; [done|apply map_disjoint_empty_l|by split|exact H].
    + intros (n & h1 & h2 & -> & Hd & H1 & H2). destruct (IH h2 n H2) as (q & n' & g1 & g2 & -> & Hg & G1 & G2). exists q, n', (h1 ∪ g1), g2.
      rewrite assoc_L. split; [done|]. apply map_disjoint_union_r in Hd as [Hd1 Hd2]. split; [by apply map_disjoint_union_l|]. split; [|exact G2]. exists n, h1, g1. done.
  - destruct (avail_relations cfg l Hl hf) as (h & Hd & p & H). by exists h, p.
  - destruct (avail_stmt cfg s NULL Hs hf) as (h & Hd & p & H). by exists h, p.
Qed.
(** A statement with two parts in its domain and three in its scattering makes six statements. *)
Definition two_by_three : statement :=
  Statement [PropScop.ex_domain; PropScop.ex_domain] [PropScop.ex_scattering; PropScop.ex_scattering; PropScop.ex_scattering] [[PropScop.ex_read]] [].
Example C66_pieces_witness : List.length (pieces two_by_three) = 6%nat ∧ map (λ s, (List.length (st_domain s), List.length (st_scattering s))) (pieces two_by_three) = repeat (1, 1)%nat 6.
Proof. split; reflexivity. Qed.
Ltac all_of := repeat (apply List.Forall_cons; [assumption|]); apply List.Forall_nil.
Example C66_statement_witness : clonable_statement lp64_debug two_by_three ∧ ∃ h p, @m_stmt lp64_debug p two_by_three NULL h.
Proof.
  assert (clonable_statement lp64_debug two_by_three) as H.
  { destruct C44_witness as [(_ & _ & Hs & _) _]. cbn [sample_scop sc_stmts] in Hs. inversion Hs as [|? ? (H1 & H2 & H3 & _) _]; subst. cbn [st_domain st_scattering st_access] in *.
    inversion H1; inversion H2; subst. split; [all_of|]. split; [all_of|]. split; [exact H3|]. split; apply List.Forall_nil || constructor. }
  split; [exact H|]. destruct (C66_values_exist lp64_debug [] PropScop.ex_domain [] [] two_by_three ∅) as (_ & _ & h & p & _ & X); [|apply List.Forall_nil|exact H|exists h, p; exact X].
  destruct H as [H _]. inversion H; subst. all_of.
Qed.
Definition norm_scop : scop :=
  Scop 1 (Some (lit "C")) [] [] [Statement [PropScop.ex_domain] [PropScop.ex_scattering] [[PropScop.ex_read]] []; Statement [PropScop.ex_domain] [PropScop.ex_scattering3] [[PropScop.ex_read]] []] default_registry [].
Example C66_normalize_witness : Forall (λ t, PropScop.extensible lp64_debug (st_scattering t)) (sc_stmts norm_scop) ∧ (∃ h p, @m_scop_list lp64_debug p [norm_scop] h) ∧
  map (λ t, map nout (st_scattering t)) (sc_stmts norm_scop) = [[1]; [3]] ∧
  match @osl_scop_normalize_scattering lp64_debug [norm_scop] with Ok [s] => map (λ t, map nout (st_scattering t)) (sc_stmts s) = [[3]; [3]] | _ => False end.
Proof.
  destruct PropScop.C16_normalize_witness as [W _]. pose proof (W _ (or_introl eq_refl)) as W1. pose proof (W _ (or_intror (or_introl eq_refl))) as W2. cbn [st_scattering] in W1, W2.
  split; [all_of|]. split; [|split; [reflexivity|vm_compute; reflexivity]].
  destruct C44_witness as [(_ & _ & Hs & Hr & _) _]. cbn [sample_scop sc_stmts sc_registry] in Hs, Hr. inversion Hs as [|? ? (H1 & H2 & H3 & _) _]; subst. cbn [st_domain st_scattering st_access] in *.
  assert (clonable_scop lp64_debug norm_scop) as C.
  { split; [apply List.Forall_nil|]. split; [split; constructor|]. split; [|split; [exact Hr|split; constructor]]. apply List.Forall_cons; [|apply List.Forall_cons; [|apply List.Forall_nil]]; split_and!; cbn [st_domain st_scattering st_access st_ext]; try assumption; try (split; constructor); apply W1 || apply W2. }
  destruct (C64_values_exist lp64_debug [norm_scop] ∅) as (h & p & _ & X); [all_of|]. exists h, p. exact X.
Qed.
(** On concrete memory: a scop is read; the union of the domain of its first statement with itself, and that of its scattering with itself, are put in a
    statement of their own, which makes four; the scatterings of the scop are normalized; everything is released, and the memory is empty again. *)
Fixpoint count_statements (fuel : nat) (p : ptr) (n : Z) : oprog Z :=
  match fuel with
  | O => lift OutOfFuel
  | Datatypes.S f => if isnull p then ret n else '(_, _, _, _, next) <== get_stmt_b p ;; count_statements f next (n + 1)
  end.
Definition split_run (text : str) : oprog (Z * str) :=
  x <== osl_scop_read_m (cfg := lp64_debug) (al := bump_allocator obj) (Some (lit "64")) (File text false) ;;
  '(_, _, _, _, st, _, _, _) <== get_scop_b (fst x) ;;
  '(d, s, _, _, _) <== get_stmt_b st ;;
  dd <== osl_relation_union_m (cfg := lp64_debug) (al := bump_allocator obj) d d ;;
  ss <== osl_relation_union_m (cfg := lp64_debug) (al := bump_allocator obj) s s ;;
  node <== osl_statement_malloc_f (al := bump_allocator obj) ;;
  put node (BStmt dd ss NULL NULL NULL) ;;==
  q <== osl_statement_remove_unions_m (cfg := lp64_debug) (al := bump_allocator obj) node ;;
  n <== count_statements 10 q 0 ;;
  osl_scop_normalize_scattering_m (cfg := lp64_debug) (al := bump_allocator obj) (fst x) ;;==
  osl_statement_free_m (cfg := lp64_debug) q ;;== osl_statement_free_m (cfg := lp64_debug) node ;;==
  t <== osl_scop_print_h (cfg := lp64_debug) (al := bump_allocator obj) (fst x) ;;
  osl_scop_free_m (cfg := lp64_debug) (fst x) ;;== ret (n, t).
Example C66_run : match split_run PropScop2.wr_text ∅ with
  | Ok ((n, t), h) => map_to_list h = [] ∧ n = 4 ∧
      bind (@osl_scop_normalize_scattering lp64_debug (List.map SaveSpec.reread_scop [PropScop2.wr_scop; PropScop.ex_scop])) (λ l, @osl_scop_print lp64_debug l) = Ok t
  | _ => False end.
Proof. vm_compute. split; [|split]; reflexivity. Qed.
