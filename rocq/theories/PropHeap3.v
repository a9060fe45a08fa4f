(** * PropHeap3: extension lists (C10, C23, C40) *)
From stdpp Require Import gmap.
From iris.proofmode Require Import tactics.
From Coq Require Import ZifyBool ZifyNat.
From Verif Require Import Base IntModel VectorModel RelationModel RelSpec RelationProofs RelationProofs2 HeapModel HeapObjects HeapSpec HeapLogic
  HeapProofs HeapProofs2 HeapProofs3 HeapProofs4 HeapProofs5 PropHeap PropHeap2.
Local Open Scope string_scope.
Local Open Scope list_scope.
Local Open Scope Z_scope.

(** ** C23: what extension lists hold *)
Lemma guri_is_iff u g : guri_is u g = true ↔ g_uri g = Some u.
Proof. unfold guri_is. destruct (g_uri g); [rewrite str_eqb_iff; naive_solver|naive_solver]. Qed.
Lemma gfind_first l u : first_such (λ g, g_uri g = Some u) l (List.find (guri_is u) l).
Proof. apply find_first, guri_is_iff. Qed.
(** The data of the first extension with the URI; NULL if there is none. Nothing is changed. *)
Theorem C23_lookup : ∀ h p l u, stores_gens h p l →
  runs_to (osl_generic_lookup_p p u) h (λ r h', h' = h ∧ ∃ g, first_such (λ g, g_uri g = Some u) l g ∧
    match g with
    | None | Some (Gen None _) => r = NULL
    | Some (Gen (Some z) _) => r ≠ NULL ∧ h !! r = Some (CData z)
    end).
Proof.
  intros h p l u H. apply (runs_intro (ex h (glist p l)) (λ r, <affine> ⌜dfound h r (glookup l u)⌝ ∗ ex h (glist p l))%I).
  - iIntros "U". iApply (wp_generic_lookup h p l u). iFrame "U". iIntros (r) "%Hr U". by iFrame.
  - split; [done|]. by apply glist_spec.
  - intros r h' (h1 & h2 & -> & Hd & [Hx Hr] & [-> H2]). change (h1 = ∅) in Hx. subst h1. rewrite left_id_L. split; [done|].
    exists (List.find (guri_is u) l). split; [apply gfind_first|]. change (dfound h r (glookup l u)) in Hr. unfold dfound, glookup in Hr.
    destruct (List.find (guri_is u) l) as [[[z|] i]|]; exact Hr.
Qed.
Print Assumptions C23_lookup.

Lemma gnew_fresh l g u : g_uri g = Some u → ¬ In (Some u) (List.map g_uri l) → gnew l g = true.
Proof.
  intros Hu Hn. unfold gnew. rewrite Hu. unfold glookup. pose proof (gfind_first l u) as H. destruct (List.find (guri_is u) l) as [y|]; [|done].
  destruct H as (l1 & l2 & -> & Hy & _). exfalso. apply Hn. rewrite map_app in_app_iff. right. left. done.
Qed.
Lemma gnew_dup l g : Forall (λ g, g_data g ≠ None) l → g_uri g = None ∨ In (g_uri g) (List.map g_uri l) → gnew l g = false.
Proof.
  intros Hl Hg. unfold gnew. destruct (g_uri g) as [u|] eqn:E; [|done]. destruct Hg as [Hg|Hg]; [done|].
  unfold glookup. pose proof (gfind_first l u) as H. destruct (List.find (guri_is u) l) as [y|].
  - destruct H as (l1 & l2 & -> & Hy & _). apply Forall_app in Hl as [_ Hl]. inversion Hl as [|? ? Hd]; subst. by destruct (g_data y).
  - cbn [first_such] in H. apply in_map_iff in Hg as (y & Ey & Hin). rewrite List.Forall_forall in H. by apply H in Hin.
Qed.
(** Adding extensions whose URIs are not in the list appends them. *)
Theorem C23_add : ∀ h1 h2 p q l v, stores_gens h1 p l → stores_gens h2 q v → h1 ##ₘ h2 →
  Forall (λ g, ∃ u, g_uri g = Some u ∧ ¬ In (Some u) (List.map g_uri l)) v →
  runs_to (osl_generic_add_p p q) (h1 ∪ h2) (λ r h', stores_gens h' r (l ++ v)).
Proof.
  intros h1 h2 p q l v H1 H2 Hd Hv. apply (runs_intro (glist p l ∗ glist q v)%I (λ r, glist r (l ++ v))).
  - iIntros "[L V]". iApply (wp_generic_add p l q v).
    { apply forallb_forall. intros x Hx. rewrite List.Forall_forall in Hv. apply Hv in Hx as (u & Hu & Hn). by eapply gnew_fresh. }
    iFrame "L V". by iIntros "$".
  - apply sep_intro; [done|by apply glist_spec|by apply glist_spec].
  - intros r h' H. by apply glist_spec.
Qed.
Print Assumptions C23_add.
(** Adding an extension without URI, or whose URI is already in the list, stops the
    process, provided the extensions of the list carry data. *)
Theorem C23_add_stops : ∀ h1 h2 p q l v, stores_gens h1 p l → stores_gens h2 q v → h1 ##ₘ h2 →
  Forall (λ g, g_data g ≠ None) l → Exists (λ g, g_uri g = None ∨ In (g_uri g) (List.map g_uri l)) v →
  stops (osl_generic_add_p p q) (h1 ∪ h2).
Proof.
  intros h1 h2 p q l v H1 H2 Hd Hl Hv. apply (stops_intro (glist p l ∗ glist q v)%I).
  - apply wpe_generic_add. apply not_true_iff_false. rewrite forallb_forall. intros Hf. apply List.Exists_exists in Hv as (x & Hx & Hv).
    apply Hf in Hx. rewrite gnew_dup in Hx; done.
  - apply sep_intro; [done|by apply glist_spec|by apply glist_spec].
Qed.
Print Assumptions C23_add_stops.
Lemma gremove_spec u l : without_first (λ g, g_uri g = Some u) l (gremove u l).
Proof.
  induction l as [|g l IH]; cbn [gremove]; [left; by split|]. destruct (guri_is u g) eqn:E.
  - apply guri_is_iff in E. right. exists [], g, l. by repeat split.
  - assert (g_uri g ≠ Some u) as Hn. { rewrite -guri_is_iff E. done. }
    destruct IH as [[H ->]|(l1 & a & l2 & -> & Ha & H1 & ->)].
    + left. split; [by constructor|done].
    + right. exists (g :: l1), a, l2. repeat split; [done|by constructor].
Qed.
(** Removal by URI frees the first extension with this URI and nothing else. *)
Theorem C23_remove : ∀ h p l u, stores_gens h p l →
  runs_to (osl_generic_remove_p p u) h (λ r h', ∃ l', without_first (λ g, g_uri g = Some u) l l' ∧ stores_gens h' r l').
Proof.
  intros h p l u H. apply (runs_intro (glist p l) (λ r, glist r (gremove u l))).
  - iIntros "L". iApply (wp_generic_remove p l u). iFrame "L". iIntros (r) "$".
  - by apply glist_spec.
  - intros r h' H'. exists (gremove u l). split; [apply gremove_spec|by apply glist_spec].
Qed.
Print Assumptions C23_remove.
Theorem C23_count : ∀ h p l, stores_gens h p l →
  runs_to (osl_generic_count_p p) h (λ n h', h' = h ∧ n = Z.of_nat (List.length l)).
Proof.
  intros h p l H. apply (runs_intro (ex h (glist p l)) (λ n, <affine> ⌜n = Z.of_nat (List.length l)⌝ ∗ ex h (glist p l))%I).
  - iIntros "U". iApply (wp_generic_count h p l). iFrame "U". iIntros "U". by iFrame.
  - split; [done|]. by apply glist_spec.
  - intros r h' (h1 & h2 & -> & Hd & [Hx Hr] & [-> H2]). change (h1 = ∅) in Hx. subst h1. by rewrite left_id_L.
Qed.
Print Assumptions C23_count.

(** *** Histories *)
(** A new extension with its data, as a client makes it. *)
Definition make_extension `{Allocator obj} (u : str) (o z : Z) : oprog ptr :=
  d <== alloc (CData z) ;; i <== alloc (CIface (Some u) o NULL) ;; osl_generic_shell_p d i.
Definition run_gop `{Allocator obj} (p : ptr) (o : gop) : oprog ptr :=
  match o with
  | GAdd u f z => g <== make_extension u f z ;; osl_generic_add_p p g
  | GRemove u => osl_generic_remove_p p u
  end.
(** The operations, the first one first. *)
Fixpoint run_gops `{Allocator obj} (p : ptr) (ops : list gop) : oprog ptr :=
  match ops with [] => ret p | o :: ops' => p' <== run_gop p o ;; run_gops p' ops' end.
(** A list that represents the history. *)
Definition represents (l : list gen) (recent : list gop) : Prop :=
  unique_gens l ∧ Forall (λ g, g_data g ≠ None) l ∧ ∀ u, glookup l u = current recent u.
Lemma find_absent l u : ¬ In (Some u) (List.map g_uri l) → List.find (guri_is u) l = None.
Proof.
  intros H. pose proof (gfind_first l u) as Hf. destruct (List.find (guri_is u) l) as [g|]; [|done].
  destruct Hf as (l1 & l2 & -> & Hg & _). exfalso. apply H. rewrite map_app in_app_iff. right. by left.
Qed.
Lemma glookup_present l u : Forall (λ g, g_data g ≠ None) l → glookup l u = None → ¬ In (Some u) (List.map g_uri l).
Proof.
  intros Hl. unfold glookup. pose proof (gfind_first l u) as H. destruct (List.find (guri_is u) l) as [g|].
  - destruct H as (l1 & l2 & -> & _ & _). apply Forall_app in Hl as [_ Hl]. by inversion Hl.
  - intros _. cbn [first_such] in H. intros (g & Hg & Hin)%in_map_iff. rewrite List.Forall_forall in H. by apply (H g).
Qed.
Lemma find_app {A} (f : A → bool) l v : List.find f (l ++ v) = match List.find f l with Some a => Some a | None => List.find f v end.
Proof. induction l as [|a l IH]; [done|]. cbn. by destruct (f a). Qed.
Lemma unique_gens_app l v : unique_gens (l ++ v) ↔
  unique_gens l ∧ unique_gens v ∧ ∀ u, In u (List.map g_uri l) → ¬ In u (List.map g_uri v).
Proof.
  unfold unique_gens. rewrite Forall_app map_app -!NoDup_ListNoDup stdpp.list.NoDup_app. setoid_rewrite elem_of_list_In. naive_solver.
Qed.
Lemma unique_glookup_remove l u u' : unique_gens l →
  glookup (gremove u l) u' = if decide (u = u') then None else glookup l u'.
Proof.
  intros Hl. destruct (gremove_spec u l) as [[H E]|(l1 & g & l2 & -> & Hg & H1 & E)].
  - rewrite E. destruct (decide (u = u')) as [<-|]; [|done]. unfold glookup. rewrite find_absent; [done|].
    intros (g & Hg & Hin)%in_map_iff. rewrite List.Forall_forall in H. by apply (H g).
  - rewrite E. apply unique_gens_app in Hl as (_ & Hl & Hd). destruct Hl as [Hf Hn].
    unfold glookup. rewrite !find_app. cbn [List.find]. destruct (decide (u = u')) as [<-|Hne].
    + rewrite (find_absent l1); [rewrite find_absent; [done|]|].
      * cbn [List.map] in Hn. rewrite Hg in Hn. by inversion Hn.
      * intros (x & Hx & Hin)%in_map_iff. rewrite List.Forall_forall in H1. by apply (H1 x).
    + destruct (List.find (guri_is u') l1) as [x|]; [done|].
      destruct (guri_is u' g) eqn:Eg; [|done]. apply guri_is_iff in Eg. congruence.
Qed.
Lemma gremove_Forall (P : gen → Prop) u l : Forall P l → Forall P (gremove u l).
Proof.
  intros H. destruct (gremove_spec u l) as [[_ ->]|(l1 & g & l2 & -> & _ & _ & ->)]; [done|].
  apply Forall_app in H as [H1 H2]. inversion H2; subst. by apply Forall_app.
Qed.
Lemma gremove_unique u l : unique_gens l → unique_gens (gremove u l).
Proof.
  intros H. destruct (gremove_spec u l) as [[_ ->]|(l1 & g & l2 & -> & _ & _ & ->)]; [done|].
  apply unique_gens_app in H as (H1 & [H2 H3] & H4). apply unique_gens_app. split; [done|]. inversion H2; subst. inversion H3; subst.
  split; [by split|]. intros x Hx Hx2. apply (H4 x Hx). by right.
Qed.
Lemma represents_remove l recent u : represents l recent → represents (gremove u l) (GRemove u :: recent).
Proof.
  intros (Hu & Hd & Hl). split; [by apply gremove_unique|]. split; [by apply gremove_Forall|]. intros u'.
  rewrite unique_glookup_remove; [|done]. cbn [current]. by rewrite Hl.
Qed.
Lemma represents_add l recent u f z : represents l recent → current recent u = None →
  represents (l ++ [Gen (Some z) (Some (Some u, f))]) (GAdd u f z :: recent).
Proof.
  intros (Hu & Hd & Hl) Hc. rewrite -Hl in Hc. pose proof (glookup_present l u Hd Hc) as Hn.
  split; [|split].
  - apply unique_gens_app. split; [done|]. split.
    + split; [by repeat constructor|]. constructor; [by intros []|constructor].
    + intros x Hx Hin. cbn in Hin. destruct Hin as [<-|[]]. done.
  - apply Forall_app. split; [done|by repeat constructor].
  - intros u'. cbn [current]. unfold glookup. rewrite find_app. cbn [List.find]. destruct (decide (u = u')) as [<-|Hne].
    + rewrite find_absent; [|done]. unfold guri_is at 1. cbn [g_uri g_iface].
      assert (str_eqb u u = true) as -> by by apply str_eqb_iff. done.
    + unfold guri_is at 2. cbn [g_uri g_iface].
      assert (str_eqb u u' = false) as ->. { apply not_true_iff_false. by rewrite str_eqb_iff. }
      rewrite -Hl. unfold glookup. by destruct (List.find (guri_is u') l).
Qed.
Lemma make_extension_runs (al : Allocator obj) h u f z :
  runs_to (make_extension u f z) h (λ q h', ∃ hn, splits h' [h; hn] ∧ stores_gens hn q [Gen (Some z) (Some (Some u, f))]).
Proof.
  assert (runs_to (make_extension u f z) ∅ (λ q h', stores_gens h' q [Gen (Some z) (Some (Some u, f))])) as H.
  { apply (runs_intro emp%I (λ q, glist q [Gen (Some z) (Some (Some u, f))])).
    - iIntros "_". iApply wp_bind. iApply wp_alloc. iIntros (d) "D". iApply wp_bind. iApply wp_alloc. iIntros (i) "I".
      iApply wp_alloc. iIntros (q) "Q". cbn [glist chain]. iExists NULL. iSplit; [|done]. iExists d, i. cbn [g_data g_iface iface_list data_at]. iFrame.
      iExists NULL. by iFrame.
    - done.
    - intros q h' Hq. by apply glist_spec. }
  rewrite -(left_id_L ∅ (∪) h). eapply runs_frame; [apply map_disjoint_empty_l|exact H|].
  intros q h' Hq Hd. exists h'. split; [|done]. apply splits_2. rewrite left_id_L. split; [by rewrite map_union_comm|done].
Qed.
Lemma run_gops_runs (al : Allocator obj) ops : ∀ recent h p l, stores_gens h p l → represents l recent → legal (rev ops ++ recent) →
    runs_to (run_gops p ops) h (λ p' h', ∃ l', stores_gens h' p' l' ∧ represents l' (rev ops ++ recent)).
Proof.
  induction ops as [|o ops IH]; intros recent h p l H Hr Hl; cbn [run_gops rev].
    - apply runs_ret. by exists l.
    - cbn [rev] in Hl. rewrite -app_assoc in Hl. cbn [app] in Hl.
      assert (legal (o :: recent)) as Ho. { clear -Hl. induction (rev ops) as [|x r IHr]; [done|]. apply IHr. destruct x; cbn in Hl; tauto. }
      eapply (runs_bind _ _ _ (λ p' h', ∃ l', stores_gens h' p' l' ∧ represents l' (o :: recent))).
      + destruct o as [u f z|u]; cbn [run_gop].
        * eapply runs_bind; [by apply make_extension_runs|]. intros q h' (hn & (-> & Hd)%splits_2 & Hq).
          destruct Ho as [Hc _]. destruct Hr as (R1 & R2 & R3). eapply runs_weaken; [apply C23_add; [done|done|done|]|].
          { constructor; [|constructor]. exists u. split; [done|]. apply glookup_present; [done|]. by rewrite R3. }
          intros p' h' Hp'. eexists. split; [exact Hp'|]. apply represents_add; [by split_and!|done].
        * apply (runs_intro (glist p l) (λ r, glist r (gremove u l))).
          -- iIntros "L". iApply (wp_generic_remove p l u). iFrame "L". iIntros (r) "$".
          -- by apply glist_spec.
          -- intros r h' H'. exists (gremove u l). split; [by apply glist_spec|by apply represents_remove].
      + intros p' h' (l' & H' & R'). eapply runs_weaken; [by apply (IH (o :: recent) h' p' l')|].
        intros p2 h2 (l2 & H2 & R2). exists l2. split; [done|]. by rewrite -app_assoc.
Qed.
Theorem C23_histories : ∀ (al : Allocator obj) ops, legal (rev ops) →
  runs_to (run_gops NULL ops) ∅ (λ p h, ∃ l, stores_gens h p l ∧ unique_gens l ∧
    ∀ u, runs_to (osl_generic_lookup_p p u) h (λ r h', h' = h ∧
      match current (rev ops) u with None => r = NULL | Some z => r ≠ NULL ∧ h !! r = Some (CData z) end)).
Proof.
  intros al ops Hops.
  eapply runs_weaken.
  - apply (run_gops_runs al ops [] ∅ NULL []); [done| |by rewrite app_nil_r]. split; [split; constructor|]. split; [constructor|done].
  - intros p h (l & H & R1 & R2 & R3). rewrite app_nil_r in R3. exists l. split; [done|]. split; [done|]. intros u.
    eapply runs_weaken; [by apply (C23_lookup h p l u)|]. intros r h' (-> & g & Hg & Hr). split; [done|].
    rewrite -R3. unfold glookup.
    assert (List.find (guri_is u) l = g) as ->.
    { pose proof (gfind_first l u) as Hf. destruct (List.find (guri_is u) l) as [x|], g as [y|]; cbn [first_such] in *; [| | |done].
      - destruct Hf as (a1 & a2 & -> & Hx & Ha). destruct Hg as (b1 & b2 & Eq & Hy & Hb). f_equal.
        clear -Eq Hx Hy Ha Hb. revert b1 Eq Hb. induction a1 as [|c a1 IH]; intros [|d b1] Eq Hb; injection Eq; intros.
        + done.
        + subst d. inversion Hb; by subst.
        + subst c. inversion Ha; by subst.
        + subst d. inversion Ha; inversion Hb; subst. by eapply IH.
      - destruct Hf as (a1 & a2 & -> & Hx & _). apply Forall_app in Hg as [_ Hg]. by inversion Hg.
      - destruct Hg as (a1 & a2 & -> & Hx & _). apply Forall_app in Hf as [_ Hf]. by inversion Hf. }
    destruct g as [[[z|] i]|]; exact Hr.
Qed.
Print Assumptions C23_histories.
Lemma run_gops_app (al : Allocator obj) ops1 ops2 : ∀ p h,
  run_gops p (ops1 ++ ops2) h = (p' <== run_gops p ops1 ;; run_gops p' ops2) h.
Proof.
  induction ops1 as [|o ops IH]; intros p h; cbn [run_gops app]; [done|]. unfold pbind at 1 2 3.
  destruct (run_gop p o h) as [[p' h']| | |]; [|done..]. apply IH.
Qed.
(** Once a URI already present is added, the process stops. *)
Theorem C23_histories_stop : ∀ (al : Allocator obj) ops u f z rest, legal (rev ops) → current (rev ops) u ≠ None →
  stops (run_gops NULL (ops ++ GAdd u f z :: rest)) ∅.
Proof.
  intros al ops u f z rest Hl Hc hf Hd. rewrite run_gops_app. unfold pbind at 1.
  destruct (run_gops_runs al ops [] ∅ NULL []) with (hf := hf) as (p & h & E & Hd' & l & H & R1 & R2 & R3).
  - done.
  - split; [split; constructor|]. split; [constructor|done].
  - by rewrite app_nil_r.
  - done.
  - rewrite E. rewrite app_nil_r in R3. cbn [run_gops run_gop]. unfold pbind at 1 2.
    destruct (make_extension_runs al h u f z hf Hd') as (q & h' & E' & Hd2 & hn & (-> & Hd3)%splits_2 & Hq). rewrite E'.
    rewrite (C23_add_stops h hn p q l [Gen (Some z) (Some (Some u, f))] H Hq Hd3 R2) //.
    constructor. right. rewrite -R3 in Hc. cbn [g_uri g_iface]. unfold glookup in Hc. pose proof (gfind_first l u) as Hf.
    destruct (List.find (guri_is u) l) as [x|]; [|done]. destruct Hf as (l1 & l2 & -> & Hx & _). rewrite map_app in_app_iff. right. by left.
Qed.
Print Assumptions C23_histories_stop.

(** An extension without data is not seen by the check: the URI ends up twice in the list. *)
Theorem C23_null_data_refuted : ∃ h1 h2 p q l v, stores_gens h1 p l ∧ stores_gens h2 q v ∧ h1 ##ₘ h2 ∧
  unique_gens l ∧ unique_gens v ∧ (∀ g g', In g l → In g' v → g_uri g = g_uri g') ∧ l ≠ [] ∧ v ≠ [] ∧
  runs_to (osl_generic_add_p p q) (h1 ∪ h2) (λ r h', stores_gens h' r (l ++ v)) ∧ ¬ unique_gens (l ++ v).
Proof.
  set (g1 := Gen None (Some (Some (lit "body"), 2))). set (g2 := Gen (Some 7) (Some (Some (lit "body"), 2))).
  set (h1 := {[1 := CGen NULL 2 NULL]} ∪ {[2 := CIface (Some (lit "body")) 2 NULL]} : heap obj).
  set (h2 := {[3 := CGen 4 5 NULL]} ∪ ({[4 := CData 7]} ∪ {[5 := CIface (Some (lit "body")) 2 NULL]}) : heap obj).
  assert (h1 ##ₘ h2) as Hd.
  { unfold h1, h2. rewrite map_disjoint_union_l. split; by apply map_disjoint_singleton_l. }
  assert (stores_gens h1 1 [g1]) as S1.
  { exists NULL, 2, NULL, ∅, {[2 := CIface (Some (lit "body")) 2 NULL]}, ∅. split; [done|]. split; [|split; [done|split; [|done]]].
    - exists {[2 := CIface (Some (lit "body")) 2 NULL]}. split; [done|]. split; [by apply map_disjoint_singleton_l|].
      exists {[2 := CIface (Some (lit "body")) 2 NULL]}. split; [by rewrite left_id_L|]. split; [apply map_disjoint_empty_l|].
      apply splits_2. split; [by rewrite right_id_L|apply map_disjoint_empty_r].
    - exists NULL, ∅. split; [done|]. split; [|done]. apply splits_2. split; [by rewrite right_id_L|apply map_disjoint_empty_r]. }
  assert (stores_gens h2 3 [g2]) as S2.
  { exists 4, 5, NULL, {[4 := CData 7]}, {[5 := CIface (Some (lit "body")) 2 NULL]}, ∅. split; [done|]. split; [|split; [done|split; [|done]]].
    - exists ({[4 := CData 7]} ∪ {[5 := CIface (Some (lit "body")) 2 NULL]}). split; [done|]. split; [by apply map_disjoint_singleton_l|].
      exists {[5 := CIface (Some (lit "body")) 2 NULL]}. split; [done|]. split; [by apply map_disjoint_singleton_l|].
      apply splits_2. split; [by rewrite right_id_L|apply map_disjoint_empty_r].
    - exists NULL, ∅. split; [done|]. split; [|done]. apply splits_2. split; [by rewrite right_id_L|apply map_disjoint_empty_r]. }
  exists h1, h2, 1, 3, [g1], [g2]. split_and!; [done|done|done| | | |done|done| |].
  - split; [by repeat constructor|]. constructor; [by intros []|constructor].
  - split; [by repeat constructor|]. constructor; [by intros []|constructor].
  - intros g g' [<-|[]] [<-|[]]. done.
  - apply (runs_intro (glist 1 [g1] ∗ glist 3 [g2])%I (λ r, glist r ([g1] ++ [g2]))).
    + iIntros "[L V]". iApply (wp_generic_add 1 [g1] 3 [g2]); [done|]. iFrame "L V". by iIntros "$".
    + apply sep_intro; [done|by apply glist_spec|by apply glist_spec].
    + intros r h' H. by apply glist_spec.
  - intros [_ Hn]. inversion Hn as [|? ? Hx]; subst. apply Hx. by left.
Qed.
Print Assumptions C23_null_data_refuted.
(** Neither are two extensions with the same URI in the list being added. *)
Theorem C23_duplicates_in_addition_refuted : ∀ h q g, g_uri g ≠ None → stores_gens h q [g; g] →
  runs_to (osl_generic_add_p NULL q) h (λ r h', stores_gens h' r [g; g]) ∧ ¬ unique_gens [g; g].
Proof.
  intros h q g Hg H. split.
  - rewrite -(left_id_L ∅ (∪) h). apply (C23_add ∅ h NULL q [] [g; g]); [done|done|apply map_disjoint_empty_l|].
    destruct (g_uri g) as [u|] eqn:E; [|done]. constructor; [exists u; by split; [|intros []]|]. constructor; [exists u; by split; [|intros []]|constructor].
  - intros [_ Hn]. inversion Hn as [|? ? Hx]; subst. apply Hx. by left.
Qed.
Print Assumptions C23_duplicates_in_addition_refuted.
(** Two URIs, one removed and added again: a legal history, and what is stored after it. *)
Example history_example : let a := lit "body" in let b := lit "loop" in
  let ops := [GAdd a 1 10; GAdd b 2 20; GRemove a; GAdd a 1 30] in
  legal (rev ops) ∧ current (rev ops) a = Some 30 ∧ current (rev ops) b = Some 20 ∧ current (rev ops) (lit "x") = None.
Proof. vm_compute. tauto. Qed.
Example history_run : let a := lit "body" in let b := lit "loop" in
  match (@run_gops (bump_allocator obj) NULL [GAdd a 1 10; GAdd b 2 20; GRemove a; GAdd a 1 30]) ∅ with
  | Ok (p, h) => size h = 6%nat ∧ match osl_generic_lookup_p p a h with Ok (r, _) => h !! r = Some (CData 30) | _ => False end
  | _ => False
  end.
Proof. vm_compute. auto. Qed.

(** ** C40: exact memory of extension lists *)
Theorem C40_generic_free : ∀ h p l, stores_gens h p l → runs_to (osl_generic_free_p p) h (λ _ h', h' = ∅).
Proof.
  intros h p l H. apply (runs_intro (glist p l) (λ _, emp)%I).
  - iIntros "U". iApply wp_generic_free. by iFrame.
  - by apply glist_spec.
  - done.
Qed.
Print Assumptions C40_generic_free.
Lemma gen_at_split k : ∀ h p l q, stores_gens h p l → gen_at h p k q → (k < List.length l)%nat →
  ∃ g n, l !! k = Some g ∧ (cseg gnode p (firstn k l) q ∗ gnode q g n ∗ glist n (skipn (S k) l))%I h.
Proof.
  induction k as [|k IH]; intros h p l q H Ha Hk; (destruct l as [|g l]; [cbn in Hk; lia|]).
  - cbn [gen_at] in Ha. subst q. apply glist_spec in H. destruct H as (n & H). exists g, n. split; [done|].
    cbn [firstn skipn cseg]. exists ∅, h. rewrite left_id_L. split; [done|]. split; [apply map_disjoint_empty_l|]. split; [by split|exact H].
  - destruct Ha as (d & i & n & Hp & Ha). apply glist_spec in H.
    destruct H as (n' & h1 & h2 & -> & Hd & H1 & H2).
    assert (n' = n) as ->.
    { destruct H1 as (d' & i' & h3 & h4 & -> & Hd' & [-> Hne] & _).
      rewrite (lookup_union_Some_l _ _ _ (CGen d' i' n')) in Hp; [by injection Hp|]. apply lookup_union_Some_l, lookup_singleton. }
    assert (gen_at h2 n k q) as Ha2.
    { assert (∀ k n l, glist n l h2 → (k < List.length l)%nat → gen_at (h1 ∪ h2) n k q → gen_at h2 n k q) as X; [|by apply (X k n l); [|cbn in Hk; lia|]].
      clear -Hd. intros k n l H2 Hk Hg.
      assert (∀ k h n l, h ⊆ h2 → glist n l h → (k < List.length l)%nat → gen_at (h1 ∪ h2) n k q → gen_at h2 n k q) as X; [|by apply (X k h2 n l)].
      clear k n l H2 Hk Hg. induction k as [|k IH]; intros h n l Hs H2 Hk Hg; [done|]. destruct l as [|g l]; [cbn in Hk; lia|].
      destruct Hg as (d & i & n2 & Hn & Hg). destruct H2 as (n' & h3 & h4 & -> & Hd' & (d' & i' & h5 & h6 & -> & _ & [-> _] & _) & H4).
      assert (h2 !! n = Some (CGen d' i' n')) as Hn2.
      { eapply lookup_weaken; [|exact Hs]. apply lookup_union_Some_l, lookup_union_Some_l, lookup_singleton. }
      rewrite (lookup_union_Some_r _ _ _ _ Hd Hn2) in Hn. injection Hn as -> -> ->.
      exists d, i, n2. split; [done|]. eapply (IH h4 n2 l); [|done|cbn in Hk; lia|done].
      etrans; [|exact Hs]. by apply map_union_subseteq_r. }
    destruct (IH h2 n l q) as (x & m & Hx & Hs); [by apply glist_spec|done|cbn in Hk; lia|]. exists x, m. split; [done|].
    cbn [firstn skipn cseg].
    assert ((gnode p g n ∗ (cseg gnode n (firstn k l) q ∗ gnode q x m ∗ glist m (skipn (S k) l)))%I (h1 ∪ h2)) as Hall by by apply sep_intro.
    revert Hall. generalize (h1 ∪ h2). intros hh. 
    assert (∀ P Q : oprop, (P ⊢ Q) → P hh → Q hh) as E. { intros P Q [HPQ] HP. by apply HPQ. }
    apply E. iIntros "(G & L & X & R)". iFrame "X R". iExists n. iFrame.
Qed.
(** Removing the [k]-th node: the list without it, and nothing else is left or lost. *)
Theorem C40_generic_remove_node : ∀ h p l q k, stores_gens h p l → gen_at h p k q → (k < List.length l)%nat →
  runs_to (osl_generic_remove_node_p p q) h (λ r h', stores_gens h' r (firstn k l ++ skipn (S k) l)).
Proof.
  intros h p l q k H Ha Hk. destruct (gen_at_split k h p l q H Ha Hk) as (g & n & _ & Hs).
  eapply (runs_intro _ (λ r, glist r (firstn k l ++ skipn (S k) l))); [|exact Hs|].
  - iIntros "(L & G & R)". iApply (wp_generic_remove_node p (firstn k l) q g n). iFrame "L G R". iIntros "$".
  - intros r h' Hr. by apply glist_spec.
Qed.
Print Assumptions C40_generic_remove_node.
(** A node that is not in the list: nothing happens. *)
Theorem C40_generic_remove_absent : ∀ h p l q, stores_gens h p l → h !! q = None →
  runs_to (osl_generic_remove_node_p p q) h (λ r h', r = p ∧ h' = h).
Proof.
  intros h p l q H Hq. apply (runs_intro (ex h (glist p l)) (λ r, <affine> ⌜r = p⌝ ∗ ex h (glist p l))%I).
  - iIntros "U". iApply (wp_generic_remove_absent h p l q); [done|]. iFrame "U". iIntros "U". by iFrame.
  - split; [done|]. by apply glist_spec.
  - intros r h' (h1 & h2 & -> & Hd & [Hx Hr] & [-> H2]). change (h1 = ∅) in Hx. subst h1. by rewrite left_id_L.
Qed.
Print Assumptions C40_generic_remove_absent.
Theorem C40_interface_free : ∀ h p l, stores_ifaces h p l → runs_to (osl_interface_free_p p) h (λ _ h', h' = ∅).
Proof.
  intros h p l H. apply (runs_intro (ilist p l) (λ _, emp)%I).
  - iIntros "U". iApply wp_interface_free. by iFrame.
  - by apply ilist_spec.
  - done.
Qed.
Print Assumptions C40_interface_free.

(** ** C10: copies of extension lists *)
Lemma gclone_ok l : ∀ c l', restricted (λ g, g_iface g ≠ None) l l' → unique_gens (c ++ l') → gclone c l = Some (c ++ l').
Proof.
  induction l as [|g l IH]; intros c l' Hr Hu; inversion Hr as [|? ? l1 Hg Hl|? ? ? Hg Hl]; subst; cbn [gclone].
  - by rewrite app_nil_r.
  - apply unique_gens_app in Hu as Hu'. destruct Hu' as (_ & [Hf _] & Hd). inversion Hf as [|? ? Hgu _]; subst.
    destruct (g_uri g) as [u|] eqn:Eu; [|done]. destruct (g_iface g) as [x|] eqn:Ei; [|done].
    rewrite (gnew_fresh c g u Eu).
    + rewrite (IH (c ++ [g]) l1); [by rewrite -app_assoc|done|by rewrite -app_assoc].
    + intros Hin. apply (Hd (Some u) Hin). left. done.
  - destruct (g_iface g) as [x|]; [exfalso; by apply Hg|]. by apply IH.
Qed.
(** The copy holds the extensions that have an interface, provided no URI occurs twice. *)
Theorem C10_generic_clone_independent : ∀ (al : Allocator obj) h p l l',
  restricted (λ g, g_iface g ≠ None) l l' → unique_gens l' → stores_gens h p l →
  runs_to (osl_generic_clone_p p) h (λ q h', ∃ hc, splits h' [h; hc] ∧ stores_gens hc q l').
Proof.
  intros al h p l l' Hr Hu H.
  apply (runs_intro (ex h (glist p l)) (λ q, ex h (glist p l) ∗ glist q l')%I).
  - iIntros "U". iApply (wp_generic_nclone h p l (-1) l'); [by apply (gclone_ok l [])|]. iFrame "U". iIntros (q) "U C". iFrame.
  - split; [done|]. by apply glist_spec.
  - intros q h' (h1 & h2 & -> & Hd & [-> H1] & H2). exists h2. split; [by apply splits_2|]. by apply glist_spec.
Qed.
Print Assumptions C10_generic_clone_independent.
Lemma restricted_all l : unique_gens l → restricted (λ g, g_iface g ≠ None) l l.
Proof.
  intros [Hf _]. induction Hf as [|g l Hg Hl IH]; [constructor|]. apply restr_keep; [|done]. unfold g_uri in Hg. by destruct (g_iface g).
Qed.
Lemma gclone_unique l : unique_gens l → gclone [] l = Some l.
Proof. intros H. apply (gclone_ok l [] l); [by apply restricted_all|done]. Qed.
(** Two extensions with data and the same URI in a list: it cannot be copied, the process stops. *)
Theorem C10_generic_clone_duplicates_refuted : ∀ (al : Allocator obj) h p g, g_uri g ≠ None → g_data g ≠ None → stores_gens h p [g; g] →
  stops (osl_generic_clone_p p) h.
Proof.
  intros al h p g Hg Hd H. apply (stops_intro (ex h (glist p [g; g]))).
  - apply wpe_generic_nclone. change (gwanted (-1) [g; g]) with [g; g]. cbn [gclone]. destruct (g_iface g) as [x|] eqn:E.
    + destruct (gnew [] g); [|done]. cbn [app]. rewrite gnew_dup; [done|by repeat constructor|]. right. by left.
    + unfold g_uri in Hg. by rewrite E in Hg.
  - split; [done|]. by apply glist_spec.
Qed.
Print Assumptions C10_generic_clone_duplicates_refuted.
