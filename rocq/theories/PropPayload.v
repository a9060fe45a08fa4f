(** * PropPayload: copies of strings and extension data share nothing; freeing releases exactly what was allocated

    C10 (strings) and C50.  [copies clone m x x'] (PayloadSpec.v): wherever the memory holds [x], the
    program makes a copy holding [x'] in memory of its own and leaves the original as it was;
    [releases free m x]: wherever the memory holds [x] and nothing else, the program leaves nothing.
    Both whatever else is allocated ([runs_to]) and whatever addresses malloc picks. *)
From stdpp Require Import gmap.
From iris.proofmode Require Import tactics.
From Coq Require Import ZifyBool ZifyNat.
From Verif Require Import Base Spec IntModel VectorModel VectorProofs RelationModel RelSpec StringsModel ExtModel HeapModel HeapObjects HeapSpec HeapLogic HeapProofs PayloadModel PayloadSpec PayloadProofs PayloadProofs2 PayloadProofs3 PayloadProofs4 PayloadProofs5 PayloadProofs6 PayloadProofs7 PayloadExists PropRelation PropVector PropHeap.
Local Open Scope string_scope.
Local Open Scope list_scope.
Local Open Scope Z_scope.

(** ** What the copies are *)

(** Strings without array are copied as an empty array; everything else is copied as it is. *)
Definition copied_strings (x : option strings) : option strings :=
  match x with Some None => Some (Some []) | _ => x end.
Definition copied_body (x : option body) : option body :=
  match x with None => None | Some b => Some (Body (copied_strings (bo_iterators b)) (copied_strings (bo_expression b))) end.
Lemma strings_clone_copied x : osl_strings_clone x = copied_strings x.
Proof. destruct x as [[[|s l]|]|]; done. Qed.
Lemma body_clone_copied x : osl_body_clone x = copied_body x.
Proof. destruct x as [b|]; cbn; [|done]. by rewrite !strings_clone_copied. Qed.

Lemma zip_lookup f a b i x y : a !! i = Some x → b !! i = Some y → RelSpec.zip_with f a b !! i = Some (f x y).
Proof. unfold RelSpec.zip_with. revert b i. induction a as [|c a IH]; intros [|d b] [|i] H1 H2; try done; cbn in *; [by simplify_eq|]. by apply IH. Qed.

(** ** Strings (C10) *)
Theorem C10_strings_clone_independent : ∀ (cfg : config) (al : Allocator obj) x, copies osl_strings_clone_p m_strings x (copied_strings x).
Proof. intros cfg al x. apply copies_intro. intros h p Q H. rewrite -strings_clone_copied. by apply wp_strings_clone. Qed.
Print Assumptions C10_strings_clone_independent.
(** Whatever happens later to the memory of the original, the copy is still there, unchanged. *)
Theorem C10_copy_survives : ∀ X (clone : ptr → oprog ptr) (m : ptr → X → mem) x x' h p hf,
  copies clone m x x' → m p x h → h ##ₘ hf →
  ∃ q hc after, clone p (h ∪ hf) = Ok (q, after) ∧ m q x' hc ∧
    ∀ later : heap obj, (∀ a, a ∉ dom h → later !! a = after !! a) → hc ⊆ later.
Proof.
  intros X clone m x x' h p hf Hc H Hd.
  destruct (Hc h p H hf Hd) as (q & h' & E & Hd' & hc & (-> & Hdc)%splits_2 & Hs).
  exists q, hc, (h ∪ hc ∪ hf). split; [done|]. split; [done|]. intros later Hl. apply map_subseteq_spec. intros a v Ha.
  rewrite Hl.
  - rewrite lookup_union_l'; [|rewrite lookup_union_r; [by rewrite Ha|by eapply map_disjoint_Some_r]].
    rewrite lookup_union_r; [done|by eapply map_disjoint_Some_r].
  - apply not_elem_of_dom. by eapply map_disjoint_Some_r.
Qed.
Print Assumptions C10_copy_survives.

(** ** Copies of extension data (C50) *)
Section P.
Context (cfg : config) (al : Allocator obj).
Ltac copying L := intros; apply copies_intro; intros ? ? ? ?; by apply L.

Theorem C50_body_clone : ∀ x, copies osl_body_clone_p m_body x (copied_body x).
Proof. intros x. apply copies_intro. intros h p Q H. rewrite -body_clone_copied. by apply wp_body_clone. Qed.
Theorem C50_extbody_clone : ∀ x, copies osl_extbody_clone_p m_extbody x (Extbody (eb_access x) (copied_body (eb_body x))).
Proof. intros x. apply copies_intro. intros h p Q H. rewrite -body_clone_copied. by apply wp_extbody_clone. Qed.
Theorem C50_arrays_clone : ∀ x, copies osl_arrays_clone_p m_arrays x x.
Proof. copying @wp_arrays_clone. Qed.
(** also osl_clay_clone and osl_textual_clone, the same code on the same structure *)
Theorem C50_comment_clone : ∀ x, copies osl_comment_clone_p m_comment x x.
Proof. copying @wp_comment_clone. Qed.
Theorem C50_scatnames_clone : ∀ x, copies osl_scatnames_clone_p m_scatnames x (copied_strings x).
Proof. intros x. apply copies_intro. intros h p Q H. rewrite -strings_clone_copied. by apply wp_scatnames_clone. Qed.
Theorem C50_coordinates_clone : ∀ x, copies osl_coordinates_clone_p m_coordinates x x.
Proof. copying @wp_coordinates_clone. Qed.
Theorem C50_scatinfos_clone : ∀ x, copies osl_scatinfos_clone_p m_scatinfos x x.
Proof. copying @wp_scatinfos_clone. Qed.
Theorem C50_annotation_clone : ∀ x, annotation_present x → copies osl_annotation_clone_p m_annotation x x.
Proof. copying @wp_annotation_clone. Qed.
Theorem C50_region_clone : ∀ l, Forall region_present l → copies osl_region_clone_p m_regions l l.
Proof. copying @wp_region_clone. Qed.
Theorem C50_loop_clone : ∀ l, copies osl_loop_clone_p m_loops l l.
Proof. copying @wp_loop_clone. Qed.
Theorem C50_pluto_unroll_clone : ∀ l, copies osl_pluto_unroll_clone_p m_unrolls l l.
Proof. copying @wp_unroll_clone. Qed.
Theorem C50_dependence_clone : ∀ l, config_ok cfg → Forall (λ d, wf_union cfg (de_domain d)) l → copies osl_dependence_clone_p m_dependences l l.
Proof.
  intros l Hc Hl. apply copies_intro. intros h p Q H. apply wp_dependence_clone; [done|].
  revert Hl. apply Forall_impl. intros d Hd. by apply (C10_clone_equal cfg).
Qed.
Theorem C50_null_clone : copies osl_null_clone_p (λ p _, m_null p) () ().
Proof. apply copies_intro. intros h p Q H. by apply wp_null_clone. Qed.

(** ** Freeing *)
Ltac releasing L := intros; apply releases_intro; intros ? ?; apply L.
Theorem C50_strings_free : ∀ x, releases osl_strings_free_p m_strings x.
Proof. releasing @wp_strings_free. Qed.
Theorem C50_body_free : ∀ x, releases osl_body_free_p m_body x.
Proof. releasing @wp_body_free. Qed.
Theorem C50_extbody_free : ∀ x, releases osl_extbody_free_p m_extbody x.
Proof. releasing @wp_extbody_free. Qed.
Theorem C50_arrays_free : ∀ x, releases osl_arrays_free_p m_arrays x.
Proof. releasing @wp_arrays_free. Qed.
Theorem C50_comment_free : ∀ x, releases osl_comment_free_p m_comment x.
Proof. releasing @wp_comment_free. Qed.
Theorem C50_scatnames_free : ∀ x, releases osl_scatnames_free_p m_scatnames x.
Proof. releasing @wp_scatnames_free. Qed.
Theorem C50_coordinates_free : ∀ x, releases osl_coordinates_free_p m_coordinates x.
Proof. releasing @wp_coordinates_free. Qed.
Theorem C50_scatinfos_free : ∀ x, releases osl_scatinfos_free_p m_scatinfos x.
Proof. releasing @wp_scatinfos_free. Qed.
Theorem C50_annotation_free : ∀ x, releases osl_annotation_free_p m_annotation x.
Proof. releasing @wp_annotation_free. Qed.
Theorem C50_region_free : ∀ l, releases osl_region_free_p m_regions l.
Proof. releasing @wp_region_free. Qed.
Theorem C50_loop_free : ∀ l, releases osl_loop_free_p m_loops l.
Proof. releasing @wp_loop_free. Qed.
Theorem C50_pluto_unroll_free : ∀ l, releases osl_pluto_unroll_free_p m_unrolls l.
Proof. releasing @wp_unroll_free. Qed.
Theorem C50_dependence_free : ∀ l, releases osl_dependence_free_p m_dependences l.
Proof. releasing @wp_dependence_free. Qed.
Theorem C50_null_free : releases osl_null_free_p (λ p _, m_null p) ().
Proof. releasing @wp_null_free. Qed.
Theorem C50_vector_free : ∀ v, releases osl_vector_free_p m_vector v.
Proof. releasing @wp_vector_free. Qed.

(** ** Both together: copying, then freeing the original and the copy in any order, leaves the memory as it was *)
Theorem C50_clone_then_free : ∀ X (clone : ptr → oprog ptr) (free : ptr → oprog unit) (m : ptr → X → mem) x x',
  copies clone m x x' → releases free m x → releases free m x' → ∀ h p, m p x h →
  runs_to (q <== clone p ;; free p ;;== ret q) h (λ q h', m q x' h') ∧
  runs_to (q <== clone p ;; free q) h (λ _ h', h' = h) ∧
  runs_to (q <== clone p ;; free p ;;== free q) h (λ _ h', h' = ∅).
Proof.
  intros X clone free m x x' Hc Hf Hf' h p H. split_and!.
  - eapply runs_bind; [by apply Hc|]. intros q h' (hc & (-> & Hd)%splits_2 & Hq). eapply (runs_bind _ _ _ (λ _ h', h' = hc)).
    + eapply runs_frame; [done|by apply Hf|]. intros [] h' -> _. by rewrite left_id_L.
    + intros [] h' ->. by apply runs_ret.
  - eapply runs_bind; [by apply Hc|]. intros q h' (hc & (-> & Hd)%splits_2 & Hq). rewrite map_union_comm; [|done].
    eapply runs_frame; [done|by apply Hf'|]. intros [] h' -> _. by rewrite left_id_L.
  - eapply runs_bind; [by apply Hc|]. intros q h' (hc & (-> & Hd)%splits_2 & Hq). eapply (runs_bind _ _ _ (λ _ h', h' = hc)).
    + eapply runs_frame; [done|by apply Hf|]. intros [] h' -> _. by rewrite left_id_L.
    + intros [] h' ->. by apply Hf'.
Qed.

(** ** Adding *)

(** The two arrays of an extbody grow by one access; nothing is lost or leaked. *)
Theorem C50_extbody_add : ∀ x start len h p, m_extbody p x h →
  runs_to (osl_extbody_add_p p start len) h (λ _ h', m_extbody p (Extbody (eb_access x ++ [(start, len)]) (eb_body x)) h').
Proof.
  intros x start len h p H. apply (runs_intro (M (m_extbody p x)) (λ _, M (m_extbody p (Extbody (eb_access x ++ [(start, len)]) (eb_body x))))); [|by apply M_holds|done].
  iIntros "H". iApply wp_extbody_add. iFrame "H". iIntros "$".
Qed.
(** osl_arrays_add copies the name, which stays with the caller, and returns the new number of names. *)
Theorem C50_arrays_add : ∀ x id s h hn p name, m_arrays p x h → m_str name (Some s) hn → h ##ₘ hn →
  runs_to (osl_arrays_add_p p id name) (h ∪ hn) (λ n h', n = Z.of_nat (List.length x) + 1 ∧ ∃ h1, splits h' [h1; hn] ∧ m_arrays p (x ++ [(id, s)]) h1).
Proof.
  intros x id s h hn p name H Hn Hd.
  apply (runs_intro (M (m_arrays p x) ∗ own hn) (λ n, M (m_arrays p (x ++ [(id, s)])) ∗ own hn ∗ <affine> ⌜n = (Z.of_nat (List.length x) + 1)%Z⌝)%I).
  - iIntros "[A H]". iApply (wp_arrays_add hn _ x id _ s); [by apply sees_self|]. iFrame "A H". iIntros "H A". by iFrame.
  - by apply sep_intro.
  - intros n h' (h1 & h2 & -> & Hd2 & H1 & h3 & h4 & -> & _ & Ho & Hp). cbn in Ho. subst h3. destruct Hp as [E4 Hp]. change (h4 = ∅) in E4 || change (h4 = ∅) in Hp. subst h4. rewrite ->(right_id_L ∅ (∪) hn) in *. split; [done|]. exists h1. split; [by apply splits_2|done].
Qed.
(** The line appended to an annotation is taken over, not copied. *)
Theorem C50_annotation_append : ∀ x ty s h hl p line, m_annotation p x h → m_str line s hl → h ##ₘ hl →
  runs_to (osl_annotation_append_prefix_p p ty line) (h ∪ hl) (λ _ h', m_annotation p (Annotation (an_prefix x ++ [(ty, s)]) (an_suffix x)) h') ∧
  runs_to (osl_annotation_append_suffix_p p ty line) (h ∪ hl) (λ _ h', m_annotation p (Annotation (an_prefix x) (an_suffix x ++ [(ty, s)])) h').
Proof.
  intros x ty s h hl p line H Hl Hd. split.
  - apply (runs_intro (M (m_annotation p x) ∗ M (m_str line s)) (λ _, M (m_annotation p (Annotation (an_prefix x ++ [(ty, s)]) (an_suffix x))))); [|by apply sep_intro|done].
    iIntros "[A L]". iApply wp_append_prefix. iFrame "A L". iIntros "$".
  - apply (runs_intro (M (m_annotation p x) ∗ M (m_str line s)) (λ _, M (m_annotation p (Annotation (an_prefix x) (an_suffix x ++ [(ty, s)]))))); [|by apply sep_intro|done].
    iIntros "[A L]". iApply wp_append_suffix. iFrame "A L". iIntros "$".
Qed.
(** osl_loop_add(l2, &l1) puts the loops of [l2] behind those of [l1] and takes them over. *)
Theorem C50_loop_add : ∀ l1 l2 h1 h2 p1 p2, m_loops p1 l1 h1 → m_loops p2 l2 h2 → h1 ##ₘ h2 →
  runs_to (osl_loop_add_p p2 p1) (h1 ∪ h2) (λ q h', m_loops q (l1 ++ l2) h').
Proof.
  intros l1 l2 h1 h2 p1 p2 H1 H2 Hd.
  apply (runs_intro (M (m_loops p1 l1) ∗ M (m_loops p2 l2)) (λ q, M (m_loops q (l1 ++ l2)))); [|by apply sep_intro|done].
  iIntros "[A L]". iApply wp_loop_add. iFrame "A L". iIntros (q) "$".
Qed.
(** osl_strings_add copies the string, osl_strings_encapsulate takes it over. *)
Theorem C50_strings_add : ∀ x s h hn p string, m_strings p (Some x) h → m_str string (Some s) hn → h ##ₘ hn →
  runs_to (osl_strings_add_p p string) (h ∪ hn)
    (λ _ h', ∃ h1, splits h' [h1; hn] ∧ m_strings p (Some (Some (match x with None => [] | Some l => l end ++ [s]))) h1).
Proof.
  intros x s h hn p string H Hn Hd.
  apply (runs_intro (M (m_strings p (Some x)) ∗ own hn) (λ _, M (m_strings p (Some (Some (elems x ++ [s])))) ∗ own hn)%I).
  - iIntros "[A H]". iApply (wp_strings_add hn _ x _ s); [by apply sees_self|]. iFrame "A H". iIntros "H A". by iFrame.
  - by apply sep_intro.
  - intros n h' (h1 & h2 & -> & Hd2 & H1%M_holds & Ho). cbn in Ho. subst h2. exists h1. split; [by apply splits_2|]. by destruct x.
Qed.
Theorem C50_strings_encapsulate : ∀ s h p, m_str p (Some s) h →
  runs_to (osl_strings_encapsulate_p p) h (λ q h', m_strings q (Some (Some [s])) h').
Proof.
  intros s h p H. apply (runs_intro (M (m_str p (Some s))) (λ q, M (m_strings q (Some (Some [s]))))); [|by apply M_holds|done].
  iIntros "A". iApply wp_strings_encapsulate. iFrame "A". iIntros (q) "$".
Qed.
Theorem C50_strings_size : ∀ x h p, m_strings p x h →
  runs_to (osl_strings_size_p p) h (λ n h', n = match x with Some (Some l) => List.length l | _ => 0%nat end ∧ h' = h).
Proof.
  intros x h p H.
  apply (runs_intro (own h) (λ n, own h ∗ <affine> ⌜n = match x with Some (Some l) => List.length l | _ => 0%nat end⌝)%I); [|done|].
  - iIntros "A". iApply (wp_strings_size_own h p x); [by apply sees_self|]. iFrame "A". iIntros "A". iFrame "A". iPureIntro. destruct x as [[l|]|]; done.
  - intros n h' (h1 & h2 & -> & Hd & Ho & -> & ->). cbn in Ho. subst. by rewrite right_id_L.
Qed.
(** osl_pluto_unroll_fill replaces the three fields of the first record and frees the iterator name it replaces. *)
Theorem C50_pluto_unroll_fill : ∀ x l i jam factor h hn p name, m_unrolls p (x :: l) h → m_str name i hn → h ##ₘ hn →
  runs_to (osl_pluto_unroll_fill_p p name jam factor) (h ∪ hn)
    (λ _ h', ∃ h1, splits h' [h1; hn] ∧ m_unrolls p (Unroll (match i with None => un_iter x | _ => i end) jam factor :: l) h1).
Proof.
  intros x l i jam factor h hn p name H Hn Hd.
  apply (runs_intro (M (m_unrolls p (x :: l)) ∗ own hn) (λ _, M (m_unrolls p (Unroll (match i with None => un_iter x | _ => i end) jam factor :: l)) ∗ own hn)%I).
  - cbn [m_unrolls]. iIntros "[(%z & A) H]". destruct z as [i0 n]. rewrite !M_beside !M_cell. iDestruct "A" as "[[A I] R]".
    iApply (wp_unroll_fill hn p name i i0 (un_iter x) jam (un_jam x) factor (un_factor x) n); [by apply sees_self|]. iFrame "H A I". iIntros (i') "H A I". iFrame "H".
    iExists (i', n). rewrite !M_beside !M_cell. cbn. iFrame.
  - by apply sep_intro.
  - intros n h' (h1 & h2 & -> & Hd2 & H1%M_holds & Ho). cbn in Ho. subst h2. exists h1. split; [by apply splits_2|done].
Qed.

(** ** Vectors *)
Theorem C50_vector_pmalloc : ∀ prec n, supported cfg prec →
  runs_to (osl_vector_pmalloc_p prec n) ∅ (λ q h', stores_vector h' q (mkvec prec (Z.of_nat n) (repeat 0 n))).
Proof.
  intros prec n Hp. apply (runs_intro emp%I (λ q, M (m_vector q (mkvec prec (Z.of_nat n) (repeat 0 n))))); [|done|done].
  iIntros "_". iApply wp_vector_pmalloc; [by apply init_set_si_ok|]. iIntros (q) "$".
Qed.
(** osl_vector_add makes a new vector and leaves its arguments (which may be the same vector) as they were. *)
Theorem C50_vector_add : ∀ v1 v2 h h1 h2 p1 p2, config_ok cfg → wf_vec cfg v1 → wf_vec cfg v2 →
  h1 ⊆ h → h2 ⊆ h → stores_vector h1 p1 v1 → stores_vector h2 p2 v2 → vsize v1 = vsize v2 → vprec v1 = vprec v2 →
  Forall2 (λ a b, representable cfg (vprec v1) (a + b) ∧ (ndebug cfg = true ∨ ¬ (a < 0 ∧ is_min cfg (vprec v1) b))) (vv v1) (vv v2) →
  runs_to (osl_vector_add_p p1 p2) h
    (λ q h', ∃ hc, splits h' [h; hc] ∧ stores_vector hc q (mkvec (vprec v1) (vsize v1) (RelSpec.zip_with Z.add (vv v1) (vv v2)))).
Proof.
  intros v1 v2 h h1 h2 p1 p2 Hc (Hs1 & L1 & R1) (Hs2 & L2 & R2) Hh1 Hh2 H1 H2 Es Ep Hf.
  assert (List.length (vv v1) = List.length (vv v2)) as El by (unfold zlength in *; lia).
  apply (runs_intro (own h) (λ q, own h ∗ M (m_vector q (mkvec (vprec v1) (vsize v1) (RelSpec.zip_with Z.add (vv v1) (vv v2)))))%I).
  - iIntros "H". iApply (wp_vector_add h p1 p2 v1 v2 (RelSpec.zip_with Z.add (vv v1) (vv v2))); [by exists h1|by exists h2|done|done|by apply init_set_si_ok| |..].
    + unfold RelSpec.zip_with. rewrite map_length combine_length. lia.
    + intros i x y z Hx Hy Hz. rewrite (zip_lookup _ _ _ _ _ _ Hx Hy) in Hz. injection Hz as <-.
      assert (representable cfg (vprec v1) x) as Rx by (exact (proj1 (Forall_lookup _ _) R1 i x Hx)).
      assert (representable cfg (vprec v1) y) as Ry by (rewrite Ep; exact (proj1 (Forall_lookup _ _) R2 i y Hy)).
      destruct (Forall2_lookup_lr _ _ _ _ _ _ Hf Hx Hy) as [Hr Hm]. by apply IntProofs.add_exact.
    + iFrame "H". iIntros (q) "H V". iFrame.
  - done.
  - intros q h' (h3 & hc & -> & Hd & Ho & Hq%M_holds). cbn in Ho. subst h3. exists hc. split; [by apply splits_2|done].
Qed.
End P.
Print Assumptions C50_body_clone.
Print Assumptions C50_extbody_clone.
Print Assumptions C50_arrays_clone.
Print Assumptions C50_comment_clone.
Print Assumptions C50_scatnames_clone.
Print Assumptions C50_coordinates_clone.
Print Assumptions C50_scatinfos_clone.
Print Assumptions C50_annotation_clone.
Print Assumptions C50_region_clone.
Print Assumptions C50_loop_clone.
Print Assumptions C50_pluto_unroll_clone.
Print Assumptions C50_dependence_clone.
Print Assumptions C50_null_clone.
Print Assumptions C50_strings_free.
Print Assumptions C50_body_free.
Print Assumptions C50_extbody_free.
Print Assumptions C50_arrays_free.
Print Assumptions C50_comment_free.
Print Assumptions C50_scatnames_free.
Print Assumptions C50_coordinates_free.
Print Assumptions C50_scatinfos_free.
Print Assumptions C50_annotation_free.
Print Assumptions C50_region_free.
Print Assumptions C50_loop_free.
Print Assumptions C50_pluto_unroll_free.
Print Assumptions C50_dependence_free.
Print Assumptions C50_null_free.
Print Assumptions C50_vector_free.
Print Assumptions C50_clone_then_free.
Print Assumptions C50_extbody_add.
Print Assumptions C50_arrays_add.
Print Assumptions C50_annotation_append.
Print Assumptions C50_loop_add.
Print Assumptions C50_strings_add.
Print Assumptions C50_strings_encapsulate.
Print Assumptions C50_strings_size.
Print Assumptions C50_pluto_unroll_fill.
Print Assumptions C50_vector_pmalloc.
Print Assumptions C50_vector_add.

(** ** Exceptions *)

(** Unlike all the other functions, osl_annotation_free and osl_annotation_clone do not accept NULL. *)
Theorem C50_annotation_null_refuted : ∀ (al : Allocator obj) h, h !! NULL = None → osl_annotation_free_p NULL h = UB ∧ osl_annotation_clone_p NULL h = UB.
Proof.
  intros al h H. split.
  - unfold osl_annotation_free_p, get_annotation, get_block, pbind, load. by rewrite H.
  - unfold osl_annotation_clone_p, osl_annotation_malloc_p, malloc, alloc, get_annotation, get_block, pbind, load.
    rewrite lookup_insert_ne; [|apply (@pick_ok obj al)]. by rewrite H.
Qed.
Print Assumptions C50_annotation_null_refuted.

(** ** The theorems speak of something *)

(** Every value can be in memory, beside whatever else is allocated. *)
Theorem C50_values_exist : ∀ hf : heap obj,
  (∀ x, ∃ h p, h ##ₘ hf ∧ m_strings p x h) ∧ (∀ x, ∃ h p, h ##ₘ hf ∧ m_extbody p x h) ∧ (∀ x, ∃ h p, h ##ₘ hf ∧ m_arrays p x h) ∧
  (∀ x, ∃ h p, h ##ₘ hf ∧ m_comment p x h) ∧ (∀ x, ∃ h p, h ##ₘ hf ∧ m_scatnames p x h) ∧ (∀ x, ∃ h p, h ##ₘ hf ∧ m_coordinates p x h) ∧
  (∀ x, ∃ h p, h ##ₘ hf ∧ m_scatinfos p x h) ∧ (∀ x, ∃ h p, h ##ₘ hf ∧ m_annotation p x h) ∧ (∀ l, ∃ h p, h ##ₘ hf ∧ m_regions p l h) ∧
  (∀ l, ∃ h p, h ##ₘ hf ∧ m_loops p l h) ∧ (∀ l, ∃ h p, h ##ₘ hf ∧ m_unrolls p l h) ∧
  (∀ cfg l, Forall (λ d, wf_union cfg (de_domain d)) l → ∃ h p, h ##ₘ hf ∧ m_dependences p l h) ∧
  (∀ cfg v, wf_vec cfg v → ∃ h p, h ##ₘ hf ∧ stores_vector h p v).
Proof.
  intros hf. split_and!.
  - intros x. apply (avail_out (λ p, m_strings p x)), avail_strings.
  - intros x. apply (avail_out (λ p, m_extbody p x)), avail_extbody.
  - intros x. apply (avail_out (λ p, m_arrays p x)), avail_arrays.
  - intros x. apply (avail_out (λ p, m_comment p x)), avail_comment.
  - intros x. apply (avail_out (λ p, m_scatnames p x)), avail_scatnames.
  - intros x. apply (avail_out (λ p, m_coordinates p x)), avail_coordinates.
  - intros x. apply (avail_out (λ p, m_scatinfos p x)), avail_scatinfos.
  - intros x. apply (avail_out (λ p, m_annotation p x)), avail_annotation.
  - intros l. apply (avail_out (λ p, m_regions p l)), avail_regions.
  - intros l. apply (avail_out (λ p, m_loops p l)), avail_loops.
  - intros l. apply (avail_out (λ p, m_unrolls p l)), avail_unrolls.
  - intros cfg l Hl. apply (avail_out (λ p, m_dependences p l)), avail_dependences. revert Hl. apply Forall_impl. intros d. apply Forall_impl.
    intros r (_ & _ & _ & Hr & _). exact Hr.
  - intros cfg v (_ & Hv & _). apply (avail_out (λ p, m_vector p v)), avail_vector. exact Hv.
Qed.
Print Assumptions C50_values_exist.

(** A run from the empty memory back to the empty memory, with the allocator that never reuses an address. *)
Definition ex_run {al : Allocator obj} : oprog unit :=
  a <== osl_arrays_malloc_p ;; n <== malloc (BStr (lit "A")) ;;
  osl_arrays_add_p a 5 n ;;== osl_arrays_add_p a 7 n ;;==
  b <== osl_arrays_clone_p a ;;
  x <== osl_annotation_malloc_p ;; osl_annotation_append_prefix_p x 2 n ;;==
  y <== osl_annotation_clone_p x ;;
  osl_arrays_free_p a ;;== osl_annotation_free_p x ;;== osl_arrays_free_p b ;;== osl_annotation_free_p y.
Example C50_run : match @ex_run (bump_allocator obj) ∅ with Ok (_, h) => map_to_list h = [] | _ => False end.
Proof. vm_compute. reflexivity. Qed.
