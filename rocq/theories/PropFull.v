(** * PropFull: whole scops in memory, with every string and every piece of extension data (C51)

    [copies clone m x x'] (PayloadSpec.v): wherever the memory holds [x], the program makes a copy holding [x'] in memory of
    its own and leaves the original as it was; [releases free m x]: wherever the memory holds [x] and nothing else, the program
    leaves nothing.  Both whatever else is allocated ([runs_to]) and whatever addresses malloc picks.  What it means for a memory
    to hold interfaces, extensions, symbols, statements, scops and names is in FullSpec.v. *)
From stdpp Require Import gmap.
From iris.proofmode Require Import tactics.
From Coq Require Import ZifyBool ZifyNat.
From Verif Require Import Base Spec IntModel VectorModel RelationModel RelSpec StringsModel ExtModel HeapModel HeapObjects HeapSpec HeapLogic HeapProofs PayloadModel PayloadSpec PayloadProofs PayloadProofs2 PayloadProofs3 PayloadProofs4 PayloadProofs5 PayloadProofs6 PayloadProofs7 PayloadExists PropStrings PropHeap PropHeap2 PropPayload RelTextModel ScopModel CloneSpec PropScop FullModel FullSpec FullProofs FullProofs2 FullProofs3 FullProofs4 FullProofs5 FullExists.
Local Open Scope string_scope.
Local Open Scope list_scope.
Local Open Scope Z_scope.

(** The elements that a clone function asked for [n] elements copies; -1 stands for all. *)
Definition first_elements {A} (n : Z) (l : list A) : list A := if Z.ltb n 0 then l else firstn (Z.to_nat n) l.
Lemma first_of {A} n (l : list A) : -1 ≤ n → (if n =? -1 then l else firstn (Z.to_nat n) l) = first_elements n l.
Proof. intros H. unfold first_elements. destruct (Z.eqb_spec n (-1)) as [->|]; [done|]. by destruct (Z.ltb_spec n 0); [lia|]. Qed.

Section P.
Context (cfg : config) (al : Allocator obj).

(** ** Copies *)
Theorem C51_scop_clone : ∀ l, config_ok cfg → Forall (clonable_scop cfg) l → copies osl_scop_clone_f m_scops l l.
Proof. intros l Hc Hl. apply copies_intro. intros h p Q H. by apply (wp_scop_clone Hc). Qed.
Theorem C51_statement_nclone : ∀ l n, config_ok cfg → Forall (clonable_statement cfg) l → -1 ≤ n →
  copies (λ p, osl_statement_nclone_f p n) m_statements l (first_elements n l).
Proof. intros l n Hc Hl Hn. apply copies_intro. intros h p Q H. rewrite -first_of; [|done]. by apply (wp_statement_nclone Hc). Qed.
Theorem C51_statement_clone : ∀ l, config_ok cfg → Forall (clonable_statement cfg) l → copies osl_statement_clone_f m_statements l l.
Proof. intros l Hc Hl. apply copies_intro. intros h p Q H. by apply (wp_statement_clone Hc). Qed.
Theorem C51_generic_nclone : ∀ l n, config_ok cfg → clonable_generics cfg l →
  copies (λ p, osl_generic_nclone_f p n) m_generics l (first_elements n l).
Proof. intros l n Hc Hl. apply copies_intro. intros h p Q H. by apply (wp_generic_nclone Hc). Qed.
Theorem C51_generic_clone : ∀ l, config_ok cfg → clonable_generics cfg l → copies osl_generic_clone_f m_generics l l.
Proof. intros l Hc Hl. apply copies_intro. intros h p Q H. by apply (wp_generic_clone Hc). Qed.
Theorem C51_symbols_nclone : ∀ l n, config_ok cfg → Forall (clonable_symbol cfg) l → -1 ≤ n →
  copies (λ p, osl_symbols_nclone_f p n) m_symbols l (first_elements n l).
Proof. intros l n Hc Hl Hn. apply copies_intro. intros h p Q H. rewrite -first_of; [|done]. by apply (wp_symbols_nclone Hc). Qed.
Theorem C51_symbols_clone : ∀ l, config_ok cfg → Forall (clonable_symbol cfg) l → copies osl_symbols_clone_f m_symbols l l.
Proof. intros l Hc Hl. apply copies_intro. intros h p Q H. by apply (wp_symbols_clone Hc). Qed.
Theorem C51_interface_nclone : ∀ l n, clonable_interfaces l → -1 ≤ n →
  copies (λ p, osl_interface_nclone_f p n) m_ifaces l (first_elements n l).
Proof. intros l n [H1 H2] Hn. apply copies_intro. intros h p Q H. rewrite -first_of; [|done]. by apply wp_interface_nclone. Qed.
Theorem C51_interface_clone : ∀ l, clonable_interfaces l → copies osl_interface_clone_f m_ifaces l l.
Proof. intros l [H1 H2]. apply copies_intro. intros h p Q H. by apply wp_interface_clone. Qed.
Theorem C51_names_clone : ∀ x, has_array (n_params x) → has_array (n_iters x) → has_array (n_scatt x) → has_array (n_locals x) → has_array (n_arrays x) →
  copies osl_names_clone_f m_names x x.
Proof. intros x H1 H2 H3 H4 H5. apply copies_intro. intros h p Q H. by apply wp_names_clone. Qed.

(** ** Freeing: no block is left *)
Theorem C51_scop_free : ∀ l, Forall typed_scop l → releases osl_scop_free_f m_scops l.
Proof. intros l Hl. apply releases_intro. intros p Q. by apply wp_scop_free. Qed.
Theorem C51_statement_free : ∀ l, Forall (λ s, typed_generics (st_ext s)) l → releases osl_statement_free_f m_statements l.
Proof. intros l Hl. apply releases_intro. intros p Q. by apply wp_statement_free. Qed.
Theorem C51_generic_free : ∀ l, typed_generics l → releases osl_generic_free_f m_generics l.
Proof. intros l Hl. apply releases_intro. intros p Q. by apply wp_generic_free. Qed.
Theorem C51_symbols_free : ∀ l, Forall typed_symbol l → releases osl_symbols_free_f m_symbols l.
Proof. intros l Hl. apply releases_intro. intros p Q. by apply wp_symbols_free. Qed.
Theorem C51_interface_free : ∀ l, releases osl_interface_free_f m_ifaces l.
Proof. intros l. apply releases_intro. intros p Q. by apply wp_interface_free. Qed.
Theorem C51_names_free : ∀ x, releases osl_names_free_f m_names x.
Proof. intros x. apply releases_intro. intros p Q. by apply wp_names_free. Qed.

(** What can be copied can be freed: copying a scop and freeing the original and the copy leaves the memory as it was. *)
Theorem C51_scop_clone_free : ∀ l h p, config_ok cfg → Forall (clonable_scop cfg) l → m_scops p l h →
  runs_to (q <== osl_scop_clone_f p ;; osl_scop_free_f p ;;== ret q) h (λ q h', m_scops q l h') ∧
  runs_to (q <== osl_scop_clone_f p ;; osl_scop_free_f q) h (λ _ h', h' = h) ∧
  runs_to (q <== osl_scop_clone_f p ;; osl_scop_free_f p ;;== osl_scop_free_f q) h (λ _ h', h' = ∅).
Proof.
  intros l h p Hc Hl H. assert (Forall typed_scop l) as Ht by (revert Hl; apply Forall_impl; apply scop_typed).
  by apply (C50_clone_then_free _ osl_scop_clone_f osl_scop_free_f m_scops l l); [by apply C51_scop_clone|by apply C51_scop_free|by apply C51_scop_free|].
Qed.

(** ** Adding: the nodes given are taken over *)
Lemma add_intro {X} (add : ptr → ptr → oprog ptr) (m : ptr → list X → mem) l1 l2 h1 h2 p1 p2 :
  (∀ Q : ptr → oprop, (M (m p1 l1) ∗ M (m p2 l2) ∗ (∀ q, M (m q (l1 ++ l2)) -∗ Q q))%I ⊢ wp (add p1 p2) Q) →
  m p1 l1 h1 → m p2 l2 h2 → h1 ##ₘ h2 → runs_to (add p1 p2) (h1 ∪ h2) (λ q h', m q (l1 ++ l2) h').
Proof.
  intros H H1 H2 Hd. apply (runs_intro (M (m p1 l1) ∗ M (m p2 l2))%I (λ q, M (m q (l1 ++ l2)))); [|by apply sep_intro|done].
  iIntros "[A B]". iApply H. iFrame. iIntros (q) "$".
Qed.
Theorem C51_scop_add : ∀ l1 l2 h1 h2 p1 p2, m_scops p1 l1 h1 → m_scops p2 l2 h2 → h1 ##ₘ h2 →
  runs_to (osl_scop_add_f p1 p2) (h1 ∪ h2) (λ q h', m_scops q (l1 ++ l2) h').
Proof. intros *. apply add_intro. intros Q. apply wp_scop_add. Qed.
Theorem C51_statement_add : ∀ l1 l2 h1 h2 p1 p2, m_statements p1 l1 h1 → m_statements p2 l2 h2 → h1 ##ₘ h2 →
  runs_to (osl_statement_add_f p1 p2) (h1 ∪ h2) (λ q h', m_statements q (l1 ++ l2) h').
Proof. intros *. apply add_intro. intros Q. apply wp_statement_add. Qed.
Theorem C51_symbols_add : ∀ l1 l2 h1 h2 p1 p2, m_symbols p1 l1 h1 → m_symbols p2 l2 h2 → h1 ##ₘ h2 →
  runs_to (osl_symbols_add_f p1 p2) (h1 ∪ h2) (λ q h', m_symbols q (l1 ++ l2) h').
Proof. intros *. apply add_intro. intros Q. apply wp_symbols_add. Qed.
(** Extensions and interfaces whose URIs are not in the list yet; otherwise the process stops. *)
Theorem C51_generic_add : ∀ l1 l2 h1 h2 p1 p2, m_generics p1 l1 h1 → m_generics p2 l2 h2 → h1 ##ₘ h2 →
  Forall (λ g, ∃ u, ScopModel.g_uri g = Some u ∧ ¬ In (Some u) (map ScopModel.g_uri l1)) l2 →
  runs_to (osl_generic_add_f p1 p2) (h1 ∪ h2) (λ q h', m_generics q (l1 ++ l2) h').
Proof. intros * H1 H2 Hd Hu. revert H1 H2 Hd. apply add_intro. intros Q. by apply wp_generic_add. Qed.
Theorem C51_generic_add_stops : ∀ l1 l2 h1 h2 p1 p2, m_generics p1 l1 h1 → m_generics p2 l2 h2 → h1 ##ₘ h2 →
  Forall (λ g, clonable_generic cfg g ∧ ScopModel.g_data g ≠ None) l1 →
  Exists (λ g, ScopModel.g_uri g = None ∨ In (ScopModel.g_uri g) (map ScopModel.g_uri l1)) l2 →
  stops (osl_generic_add_f p1 p2) (h1 ∪ h2).
Proof.
  intros * H1 H2 Hd Ha Hu. apply (stops_intro (M (m_generics p1 l1) ∗ M (m_generics p2 l2))%I); [by apply (wpe_generic_add (cfg := cfg))|by apply sep_intro].
Qed.
Theorem C51_interface_add : ∀ l1 l2 h1 h2 p1 p2, m_ifaces p1 l1 h1 → m_ifaces p2 l2 h2 → h1 ##ₘ h2 →
  Forall (λ i, ∃ u, if_uri i = Some u ∧ ¬ In (Some u) (map if_uri l1)) l2 →
  runs_to (osl_interface_add_f p1 p2) (h1 ∪ h2) (λ q h', m_ifaces q (l1 ++ l2) h').
Proof. intros * H1 H2 Hd Hu. revert H1 H2 Hd. apply add_intro. intros Q. by apply wp_interface_add. Qed.
Theorem C51_interface_add_stops : ∀ l1 l2 h1 h2 p1 p2, m_ifaces p1 l1 h1 → m_ifaces p2 l2 h2 → h1 ##ₘ h2 →
  Exists (λ i, if_uri i = None ∨ In (if_uri i) (map if_uri l1)) l2 → stops (osl_interface_add_f p1 p2) (h1 ∪ h2).
Proof. intros * H1 H2 Hd Hu. apply (stops_intro (M (m_ifaces p1 l1) ∗ M (m_ifaces p2 l2))%I); [by apply wpe_interface_add|by apply sep_intro]. Qed.

(** ** Looking up, counting, removing *)
Lemma has_uri_iff g s : has_uri g s = true ↔ ScopModel.g_uri g = Some s.
Proof. unfold has_uri. destruct (ScopModel.g_uri g); [rewrite str_eqb_eq; naive_solver|naive_solver]. Qed.
Lemma lookup_first l s : ∃ g, first_such (λ g, ScopModel.g_uri g = Some s) l g ∧ osl_generic_lookup l s = match g with Some g => ScopModel.g_data g | None => None end.
Proof.
  exists (List.find (λ g, has_uri g s) l). split; [apply find_first; intros g; apply has_uri_iff|]. induction l as [|g l IH]; [done|]. cbn. by destruct (has_uri g s).
Qed.
(** The data of the first extension with the URI, at its address; NULL if there is none.  Nothing is changed. *)
Theorem C51_generic_lookup : ∀ l s h p, m_generics p l h →
  runs_to (osl_generic_lookup_f p s) h (λ q h', h' = h ∧ ∃ g, first_such (λ g, ScopModel.g_uri g = Some s) l g ∧
    match g with Some (Generic _ (Some d)) => ∃ hd, hd ⊆ h ∧ m_data q d hd | _ => q = NULL end).
Proof.
  intros l s h p H. apply (runs_intro (own h) (λ q, <affine> ⌜data_at h l s q⌝ ∗ own h)%I).
  - iIntros "O". iApply (wp_generic_lookup h p l s); [by apply sees_self|]. iFrame "O". iIntros (q) "%Hq O". by iFrame.
  - done.
  - intros q h' (h1 & h2 & -> & Hd & [Hx Hr] & Ho). cbn in Ho. subst h2. change (h1 = ∅) in Hx. subst h1. rewrite left_id_L. split; [done|].
    destruct (lookup_first l s) as (g & Hg & E). exists g. split; [done|]. apply data_at_lookup in Hr. rewrite E in Hr.
    destruct g as [[i [d|]]|]; cbn [ScopModel.g_data m_content] in Hr; [exact Hr|by apply sees_nothing in Hr|by apply sees_nothing in Hr].
Qed.
Theorem C51_generic_count : ∀ l h p, m_generics p l h → runs_to (osl_generic_count_f p) h (λ n h', n = Z.of_nat (List.length l) ∧ h' = h).
Proof.
  intros l h p H. apply (runs_intro (own h) (λ n, <affine> ⌜n = Z.of_nat (List.length l)⌝ ∗ own h)%I).
  - iIntros "O". iApply (wp_generic_count h p l); [by apply sees_self|]. iFrame "O". iIntros "O". by iFrame.
  - done.
  - intros q h' (h1 & h2 & -> & Hd & [Hx Hr] & Ho). cbn in Ho. subst h2. change (h1 = ∅) in Hx. subst h1. by rewrite left_id_L.
Qed.
(** The first extension with the URI leaves the list, and all its memory is released. *)
Lemma without_spec s l : without_first (λ g, ScopModel.g_uri g = Some s) l (without s l).
Proof.
  induction l as [|g l IH]; cbn [without]; [by left|]. destruct (has_uri g s) eqn:E.
  - right. exists [], g, l. split; [done|]. split; [by apply has_uri_iff|]. by split.
  - assert (ScopModel.g_uri g ≠ Some s) as Hn by (rewrite -has_uri_iff E; done).
    destruct IH as [[H1 H2]|(l1 & a & l2 & -> & Ha & Hl & ->)].
    + left. split; [by constructor|by rewrite H2].
    + right. exists (g :: l1), a, l2. split; [done|]. split; [done|]. split; [by constructor|done].
Qed.
Theorem C51_generic_remove : ∀ l s h p, typed_generics l → m_generics p l h →
  runs_to (osl_generic_remove_f p s) h (λ q h', ∃ l', without_first (λ g, ScopModel.g_uri g = Some s) l l' ∧ m_generics q l' h').
Proof.
  intros l s h p Ht H. apply (runs_intro (M (m_generics p l)) (λ q, M (m_generics q (without s l)))).
  - iIntros "O". iApply (wp_generic_remove p l s); [done|]. iFrame "O". iIntros (q) "$".
  - by apply M_holds.
  - intros q h' Hq. exists (without s l). split; [apply without_spec|done].
Qed.
End P.
Print Assumptions C51_scop_clone.
Print Assumptions C51_statement_nclone.
Print Assumptions C51_statement_clone.
Print Assumptions C51_generic_nclone.
Print Assumptions C51_generic_clone.
Print Assumptions C51_symbols_nclone.
Print Assumptions C51_symbols_clone.
Print Assumptions C51_interface_nclone.
Print Assumptions C51_interface_clone.
Print Assumptions C51_names_clone.
Print Assumptions C51_scop_free.
Print Assumptions C51_statement_free.
Print Assumptions C51_generic_free.
Print Assumptions C51_symbols_free.
Print Assumptions C51_interface_free.
Print Assumptions C51_names_free.
Print Assumptions C51_scop_clone_free.
Print Assumptions C51_scop_add.
Print Assumptions C51_statement_add.
Print Assumptions C51_symbols_add.
Print Assumptions C51_generic_add.
Print Assumptions C51_generic_add_stops.
Print Assumptions C51_interface_add.
Print Assumptions C51_interface_add_stops.
Print Assumptions C51_generic_lookup.
Print Assumptions C51_generic_count.
Print Assumptions C51_generic_remove.

(** ** Exceptions *)

(** An extension without interface: osl_generic_free can only free the block of its data, here a comment, whose text stays. *)
Theorem C51_unregistered_leak_refuted : ∀ s h p, m_generics p [Generic None (Some (DComment (Some s)))] h →
  runs_to (osl_generic_free_f p) h (λ _ h', ∃ t, m_str t (Some s) h').
Proof.
  intros s h p H. apply (runs_intro (M (m_generics p [Generic None (Some (DComment (Some s)))]) ∗ emp)%I (λ _, ∃ t, M (m_str t (Some s)))%I).
  - apply (wp_loop_on 1); [apply (generics_length p [Generic None (Some (DComment (Some s)))])|]. intros [|[|k]] Hk; [lia..|]. iIntros "[H _]".
    cbn [generic_free_loop]. unfold m_generics. rewrite M_chain_cons. iDestruct "H" as (n) "[H R]". rewrite M_chain_nil. iDestruct "R" as %->.
    rewrite M_generic. iDestruct "H" as (w) "(P & I & D)". destruct w as [pd pi]. cbn [fst snd m_iface_opt m_content m_data]. rewrite M_nothing. iDestruct "I" as %->.
    unfold m_comment. rewrite M_somewhere. iDestruct "D" as (t) "D". rewrite M_beside M_cell. iDestruct "D" as "[D T]".
    iDestruct (isnull_false with "P") as "[%Ep P]". rewrite Ep. get "P". iDestruct (isnull_false with "D") as "[%Ed D]".
    change (isnull NULL) with true. cbn beta iota. rewrite Ed. iApply wp_bind. iApply wp_free. iFrame "D". iApply wp_bind. iApply wp_free. iFrame "P".
    iApply wp_ret. by iExists t.
  - exists h, ∅. split; [by rewrite right_id_L|]. split; [apply map_disjoint_empty_r|]. by split; [apply M_holds|].
  - intros [] h' [t Ht]. by exists t.
Qed.
Print Assumptions C51_unregistered_leak_refuted.
(** An annotation extension without data: osl_generic_free dereferences NULL, because osl_annotation_free does (C50). *)
Theorem C51_annotation_without_data_refuted : ∀ u l h p, m_generics p (Generic (Some (Iface u KAnnotation)) None :: l) h → h !! NULL = None →
  osl_generic_free_f p h = UB.
Proof.
  intros u l h p H Hn. apply sees_self in H. apply sees_chain_cons in H as (n & H & _). apply sees_generic in H as (pd & pi & Hp & Hpn & Hi & Hd).
  cbn [m_iface_opt m_content] in *. apply sees_nothing in Hd as ->. apply sees_iface in Hi as (pu & Hpi & Hin & _).
  unfold osl_generic_free_f, HeapModel.loop. generalize (size h). intros k. cbn [generic_free_loop].
  assert (∀ A (f : _ → oprog A), pbind (get_gen_b p) f h = f (NULL, pi, n) h) as G.
  { intros A f. unfold get_gen_b, get_block, pbind, load. by rewrite Hp. }
  assert (∀ A (f : _ → oprog A), pbind (kind_at pi) f h = f KAnnotation h) as K.
  { intros A f. unfold kind_at, get_iface_b, get_block, pbind, load. rewrite Hpi. cbn [if_kind]. unfold ret, lift. by rewrite kind_of_code. }
  rewrite (isnull_ne p Hpn) G (isnull_ne pi Hin). unfold pbind at 1. rewrite K.
  unfold data_free, osl_annotation_free_p, get_annotation, get_block, pbind, load. by rewrite Hn.
Qed.
Print Assumptions C51_annotation_without_data_refuted.

(** ** The theorems speak of something *)

(** Scops that can be copied, and the other values, can be in memory, beside whatever else is allocated. *)
Theorem C51_values_exist : ∀ cfg (hf : heap obj),
  (∀ l, Forall (clonable_scop cfg) l → ∃ h p, h ##ₘ hf ∧ m_scops p l h) ∧
  (∀ l, Forall (clonable_statement cfg) l → ∃ h p, h ##ₘ hf ∧ m_statements p l h) ∧
  (∀ l, Forall (clonable_generic cfg) l → ∃ h p, h ##ₘ hf ∧ m_generics p l h) ∧
  (∀ l, Forall (clonable_symbol cfg) l → ∃ h p, h ##ₘ hf ∧ m_symbols p l h) ∧
  (∀ l, ∃ h p, h ##ₘ hf ∧ m_ifaces p l h) ∧ (∀ x, ∃ h p, h ##ₘ hf ∧ m_names p x h).
Proof.
  intros cfg hf. split_and!.
  - intros l Hl. by apply (avail_out (λ p, m_scops p l)), (avail_scops cfg).
  - intros l Hl. by apply (avail_out (λ p, m_statements p l)), (avail_statements cfg).
  - intros l Hl. by apply (avail_out (λ p, m_generics p l)), (avail_generics cfg).
  - intros l Hl. by apply (avail_out (λ p, m_symbols p l)), (avail_symbols cfg).
  - intros l. apply (avail_out (λ p, m_ifaces p l)), avail_ifaces.
  - intros x. apply (avail_out (λ p, m_names p x)), avail_names.
Qed.
Print Assumptions C51_values_exist.

(** The scop of C44, with a body, symbols that hold extensions themselves, arrays and the eighteen interfaces, twice. *)
Example C51_witness : Forall (clonable_scop lp64_debug) [PropClone.sample_scop; PropClone.sample_scop] ∧ Forall typed_scop [PropClone.sample_scop; PropClone.sample_scop] ∧
  ∃ h p, m_scops p [PropClone.sample_scop; PropClone.sample_scop] h.
Proof.
  destruct PropClone.C44_witness as [H _]. assert (Forall (clonable_scop lp64_debug) [PropClone.sample_scop; PropClone.sample_scop]) as Hl by (apply Forall_cons; [exact H|]; apply Forall_cons; [exact H|]; apply Forall_nil).
  split; [done|]. split; [revert Hl; apply Forall_impl; apply scop_typed|].
  destruct (C51_values_exist lp64_debug ∅) as [He _]. destruct (He _ Hl) as (h & p & _ & Hp). by exists h, p.
Qed.

(** A run from the empty memory back to the empty memory, with the allocator that never reuses an address. *)
Definition ex_full {cfg : config} {al : Allocator obj} : oprog (Z * Z) :=
  u <== malloc (BStr (lit "comment")) ;; i <== malloc (BIface u (code KComment) NULL) ;;
  t <== malloc (BStr (lit "hello")) ;; c <== malloc (BHolder t) ;;
  g <== osl_generic_shell_f c i ;;
  u2 <== malloc (BStr (lit "null")) ;; i2 <== malloc (BIface u2 (code KNull) NULL) ;;
  d2 <== malloc BNull ;;
  g2 <== osl_generic_shell_f d2 i2 ;;
  e <== osl_generic_add_f g g2 ;;
  st <== osl_statement_malloc_f ;;
  put st (BStmt NULL NULL NULL e NULL) ;;==
  st2 <== osl_statement_clone_f st ;;
  st' <== osl_statement_add_f st st2 ;;
  l <== malloc (BStr (lit "C")) ;;
  r <== osl_interface_clone_f i ;;
  sc <== osl_scop_malloc_f ;;
  put sc (BScop 1 l NULL NULL st' r NULL NULL) ;;==
  sc2 <== osl_scop_clone_f sc ;;
  '(_, _, _, _, s2, _, _, _) <== get_scop_b sc2 ;;
  '(_, _, _, e2, _) <== get_stmt_b s2 ;;
  n <== osl_generic_count_f e2 ;;
  osl_scop_free_f sc ;;==
  e3 <== osl_generic_remove_f e2 (lit "comment") ;;
  '(a, b, x, _, next) <== get_stmt_b s2 ;; put s2 (BStmt a b x e3 next) ;;==
  m <== osl_generic_count_f e3 ;;
  osl_scop_free_f sc2 ;;== ret (n, m).
Example C51_run : match @ex_full lp64_debug (bump_allocator obj) ∅ with Ok (r, h) => r = (2, 1) ∧ map_to_list h = [] | _ => False end.
Proof. vm_compute. split; reflexivity. Qed.
