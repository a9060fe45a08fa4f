(** * PropHeap2: interface registries (C24) *)
From stdpp Require Import gmap.
From iris.proofmode Require Import tactics.
From Coq Require Import ZifyBool ZifyNat.
From Verif Require Import Base IntModel VectorModel RelationModel RelSpec RelationProofs RelationProofs2 HeapModel HeapObjects HeapSpec HeapLogic
  HeapProofs HeapProofs2 HeapProofs3 HeapProofs4 HeapProofs5 PropHeap.
From Verif Require PropStrings.
Local Open Scope string_scope.
Local Open Scope list_scope.
Local Open Scope Z_scope.

(** ** From the logic to plain memories *)
Lemma splits_1 h a : splits h [a] ↔ h = a.
Proof.
  cbn [splits]. split.
  - intros (h' & -> & _ & ->). by rewrite right_id_L.
  - intros ->. exists ∅. rewrite right_id_L. split_and!; [done|apply map_disjoint_empty_r|done].
Qed.
Ltac dis := repeat match goal with
  | H : _ ##ₘ (_ ∪ _) |- _ => apply map_disjoint_union_r in H as [? ?]
  | H : (_ ∪ _) ##ₘ _ |- _ => apply map_disjoint_union_l in H as [? ?]
  | |- _ ##ₘ (_ ∪ _) => apply map_disjoint_union_r_2
  | |- (_ ∪ _) ##ₘ _ => apply map_disjoint_union_l_2
  end; done.
Lemma ilist_spec l : ∀ h p, ilist p l h ↔ stores_ifaces h p l.
Proof.
  induction l as [|[u o] l IH]; intros h p; cbn [ilist chain stores_ifaces].
  - split; [by intros [-> ->]|by intros (-> & ->)].
  - split.
    + intros (n & h1 & h2 & -> & Hd & [-> Hp] & H2). exists n, h2. split; [done|]. split; [by apply splits_2|by apply IH].
    + intros (n & h2 & Hp & (-> & Hd)%splits_2 & H2). exists n. eexists _, h2. split; [done|]. split; [done|]. split; [by split|by apply IH].
Qed.
Lemma data_spec h p d : data_at p d h ↔ stores_data h p d.
Proof. destruct d; cbn [data_at stores_data]; [done|]. split; [by intros [-> ->]|by intros (-> & ->)]. Qed.
Lemma glist_spec l : ∀ h p, glist p l h ↔ stores_gens h p l.
Proof.
  induction l as [|g l IH]; intros h p; cbn [glist chain stores_gens].
  - split; [by intros [-> ->]|by intros (-> & ->)].
  - split.
    + intros (n & h1 & hn & -> & Hd1 & (d & i & h2 & h3 & -> & Hd2 & [-> Hp] & hd & hi & -> & Hd3 & H3 & H4) & H5).
      exists d, i, n, hd, hi, hn. split; [done|]. split; [|split; [by apply data_spec|split; [by apply ilist_spec|by apply IH]]].
      exists (hd ∪ (hi ∪ hn)). split; [by rewrite !assoc_L|]. split; [dis|].
      exists (hi ∪ hn). split; [done|]. split; [dis|]. apply splits_2. split; [done|dis].
    + intros (d & i & n & hd & hi & hn & Hp & (h' & -> & D1 & h'' & -> & D2 & (-> & D3)%splits_2) & Hd & Hi & Hn).
      exists n, ({[p := CGen d i n]} ∪ (hd ∪ hi)), hn. split; [by rewrite !assoc_L|]. split; [dis|]. split; [|by apply IH].
      exists d, i. eexists _, (hd ∪ hi). split; [done|]. split; [dis|]. split; [by split|].
      exists hd, hi. split; [done|]. split; [dis|]. split; [by apply data_spec|by apply ilist_spec].
Qed.
Lemma slist_spec l : ∀ h p, slist p l h ↔ stores_stmts h p l.
Proof.
  induction l as [|s l IH]; intros h p; cbn [slist chain stores_stmts].
  - split; [by intros [-> ->]|by intros (-> & ->)].
  - split.
    + intros (n & h1 & hn & -> & Hd1 & (d & sc & a & e & h2 & h3 & -> & Hd2 & [-> Hp] & hd & h4 & -> & Hd3 & H3 &
        hs & h5 & -> & Hd4 & H4 & ha & he & -> & Hd5 & H5 & H6) & H7).
      exists d, sc, a, e, n, hd, hs, ha, he, hn. split; [done|]. split.
      2:{ split; [by apply runion_spec|]. split; [by apply runion_spec|]. split; [by apply rlist_spec|]. split; [by apply glist_spec|by apply IH]. }
      exists (hd ∪ (hs ∪ (ha ∪ (he ∪ hn)))). split; [by rewrite !assoc_L|]. split; [dis|].
      exists (hs ∪ (ha ∪ (he ∪ hn))). split; [done|]. split; [dis|].
      exists (ha ∪ (he ∪ hn)). split; [done|]. split; [dis|].
      exists (he ∪ hn). split; [done|]. split; [dis|]. apply splits_2. split; [done|dis].
    + intros (d & sc & a & e & n & hd & hs & ha & he & hn & Hp & (h1 & -> & D1 & h2 & -> & D2 & h3 & -> & D3 & h4 & -> & D4 & (-> & D5)%splits_2) &
        Hd & Hs & Ha & He & Hn).
      exists n, ({[p := CStmt d sc a e n]} ∪ (hd ∪ (hs ∪ (ha ∪ he)))), hn. split; [by rewrite !assoc_L|]. split; [dis|]. split; [|by apply IH].
      exists d, sc, a, e. eexists _, (hd ∪ (hs ∪ (ha ∪ he))). split; [done|]. split; [dis|]. split; [by split|].
      exists hd, (hs ∪ (ha ∪ he)). split; [done|]. split; [dis|]. split; [by apply runion_spec|].
      exists hs, (ha ∪ he). split; [done|]. split; [dis|]. split; [by apply runion_spec|].
      exists ha, he. split; [done|]. split; [dis|]. split; [by apply rlist_spec|by apply glist_spec].
Qed.
Lemma sclist_spec l : ∀ h p, sclist p l h ↔ stores_scops h p l.
Proof.
  induction l as [|s l IH]; intros h p; cbn [sclist chain stores_scops].
  - split; [by intros [-> ->]|by intros (-> & ->)].
  - split.
    + intros (n & h1 & hn & -> & Hd1 & (c & pa & st & r & e & h2 & h3 & -> & Hd2 & [-> Hp] & hc & h4 & -> & Hd3 & H3 &
        hp & h5 & -> & Hd4 & H4 & hs & h6 & -> & Hd5 & H5 & hr & he & -> & Hd6 & H6 & H7) & H8).
      exists c, pa, st, r, e, n, hc, hp, hs, hr, he, hn. split; [done|]. split.
      2:{ split; [by apply runion_spec|]. split; [by apply glist_spec|]. split; [by apply slist_spec|]. split; [by apply ilist_spec|].
          split; [by apply glist_spec|by apply IH]. }
      exists (hc ∪ (hp ∪ (hs ∪ (hr ∪ (he ∪ hn))))). split; [by rewrite !assoc_L|]. split; [dis|].
      exists (hp ∪ (hs ∪ (hr ∪ (he ∪ hn)))). split; [done|]. split; [dis|].
      exists (hs ∪ (hr ∪ (he ∪ hn))). split; [done|]. split; [dis|].
      exists (hr ∪ (he ∪ hn)). split; [done|]. split; [dis|].
      exists (he ∪ hn). split; [done|]. split; [dis|]. apply splits_2. split; [done|dis].
    + intros (c & pa & st & r & e & n & hc & hp & hs & hr & he & hn & Hp &
        (h1 & -> & D1 & h2 & -> & D2 & h3 & -> & D3 & h4 & -> & D4 & h5 & -> & D5 & (-> & D6)%splits_2) &
        Hc & Hpa & Hs & Hr & He & Hn).
      exists n, ({[p := CScop (sc_version s) (sc_language s) c pa st r e n]} ∪ (hc ∪ (hp ∪ (hs ∪ (hr ∪ he))))), hn.
      split; [by rewrite !assoc_L|]. split; [dis|]. split; [|by apply IH].
      exists c, pa, st, r, e. eexists _, (hc ∪ (hp ∪ (hs ∪ (hr ∪ he)))). split; [done|]. split; [dis|]. split; [by split|].
      exists hc, (hp ∪ (hs ∪ (hr ∪ he))). split; [done|]. split; [dis|]. split; [by apply runion_spec|].
      exists hp, (hs ∪ (hr ∪ he)). split; [done|]. split; [dis|]. split; [by apply glist_spec|].
      exists hs, (hr ∪ he). split; [done|]. split; [dis|]. split; [by apply slist_spec|].
      exists hr, he. split; [done|]. split; [dis|]. split; [by apply ilist_spec|by apply glist_spec].
Qed.
Lemma stops_intro {A} (P : oprop) (c : oprog A) h : (P ⊢ wpe c) → P h → stops c h.
Proof. intros [HP] H hf Hd. by apply (HP h H hf Hd). Qed.

(** ** C24: interface registries *)
Lemma str_eqb_iff a b : str_eqb a b = true ↔ a = b.
Proof. apply PropStrings.str_eqb_eq. Qed.
Lemma iuri_is_iff u x : iuri_is u x = true ↔ fst x = Some u.
Proof. unfold iuri_is. destruct (fst x); [rewrite str_eqb_iff; naive_solver|naive_solver]. Qed.
Lemma find_first {A} (f : A → bool) (P : A → Prop) l : (∀ a, f a = true ↔ P a) → first_such P l (List.find f l).
Proof.
  intros Hf. induction l as [|a l IH]; [constructor|]. cbn [List.find]. destruct (f a) eqn:E.
  - exists [], l. split; [done|]. split; [by apply Hf|constructor].
  - assert (¬ P a) as Hn. { rewrite -Hf E. done. }
    destruct (List.find f l) as [b|]; cbn [first_such] in *; [|by constructor].
    destruct IH as (l1 & l2 & -> & Hb & H1). exists (a :: l1), l2. split; [done|]. split; [done|]. by constructor.
Qed.
Lemma ilookup_first l u : first_such (λ x, fst x = Some u) l (ilookup l u).
Proof. apply find_first, iuri_is_iff. Qed.

(** The first interface with the URI, at its address in the list; NULL if there is none. Nothing is changed. *)
Theorem C24_lookup : ∀ h p l u, stores_ifaces h p l →
  runs_to (osl_interface_lookup_p p (Some u)) h (λ r h', h' = h ∧ ∃ x, first_such (λ x, fst x = Some u) l x ∧
    match x with None => r = NULL | Some (u', o) => r ≠ NULL ∧ ∃ n, h !! r = Some (CIface u' o n) end).
Proof.
  intros h p l u H. apply (runs_intro (ex h (ilist p l)) (λ r, <affine> ⌜ifound h r (ilookup l u)⌝ ∗ ex h (ilist p l))%I).
  - iIntros "U". iApply (wp_interface_lookup h p l u). iFrame "U". iIntros (r) "%Hr U". by iFrame.
  - split; [done|]. by apply ilist_spec.
  - intros r h' (h1 & h2 & -> & Hd & [Hx Hr] & [-> H2]). change (h1 = ∅) in Hx. subst h1. rewrite left_id_L. split; [done|].
    exists (ilookup l u). split; [apply ilookup_first|]. cbv beta in Hr. unfold ifound in Hr. destruct (ilookup l u) as [[u' o]|]; exact Hr.
Qed.
Print Assumptions C24_lookup.
Theorem C24_lookup_null : ∀ p h, osl_interface_lookup_p p None h = Ok (NULL, h).
Proof. done. Qed.
Print Assumptions C24_lookup_null.

Lemma inew_iff l x : inew l x = true ↔ ∃ u, fst x = Some u ∧ ¬ In (Some u) (List.map fst l).
Proof.
  unfold inew. destruct (fst x) as [u|]; [|naive_solver]. pose proof (ilookup_first l u) as H. destruct (ilookup l u) as [y|]; cbn [first_such] in H.
  - destruct H as (l1 & l2 & -> & Hy & _). split; [done|]. intros (u' & [= <-] & Hn). exfalso. apply Hn. rewrite map_app in_app_iff. right. by left.
  - split; [|done]. intros _. exists u. split; [done|]. intros (y & Hy & Hin)%in_map_iff.
    rewrite List.Forall_forall in H. by apply (H y Hin).
Qed.
(** Adding interfaces with URIs that are not in the list appends them; otherwise the process stops. *)
Theorem C24_add : ∀ h1 h2 p q l v, stores_ifaces h1 p l → stores_ifaces h2 q v → h1 ##ₘ h2 →
  Forall (λ x, ∃ u, fst x = Some u ∧ ¬ In (Some u) (List.map fst l)) v →
  runs_to (osl_interface_add_p p q) (h1 ∪ h2) (λ r h', stores_ifaces h' r (l ++ v)).
Proof.
  intros h1 h2 p q l v H1 H2 Hd Hv. apply (runs_intro (ilist p l ∗ ilist q v)%I (λ r, ilist r (l ++ v))).
  - iIntros "[L V]". iApply (wp_interface_add p l q v).
    { apply forallb_forall. intros x Hx. apply inew_iff. rewrite List.Forall_forall in Hv. by apply Hv. }
    iFrame "L V". by iIntros "$".
  - apply sep_intro; [done|by apply ilist_spec|by apply ilist_spec].
  - intros r h' H. by apply ilist_spec.
Qed.
Print Assumptions C24_add.
Theorem C24_add_stops : ∀ h1 h2 p q l v, stores_ifaces h1 p l → stores_ifaces h2 q v → h1 ##ₘ h2 →
  Exists (λ x, fst x = None ∨ In (fst x) (List.map fst l)) v → stops (osl_interface_add_p p q) (h1 ∪ h2).
Proof.
  intros h1 h2 p q l v H1 H2 Hd Hv. apply (stops_intro (ilist p l ∗ ilist q v)%I).
  - apply wpe_interface_add. apply not_true_iff_false. rewrite forallb_forall. intros Hf. apply List.Exists_exists in Hv as (x & Hx & Hv).
    apply Hf, inew_iff in Hx as (u & E & Hn). rewrite E in Hv. destruct Hv; done.
  - apply sep_intro; [done|by apply ilist_spec|by apply ilist_spec].
Qed.
Print Assumptions C24_add_stops.

(** The default registry: eighteen interfaces with pairwise distinct URIs. *)
Lemma wp_add_interfaces {al : Allocator obj} v : ∀ p l (Q : _ → oprop),
  NoDup (List.map fst (l ++ List.map (λ x, (Some (fst x), snd x)) v)) →
  (ilist p l ∗ (∀ r, ilist r (l ++ List.map (λ x, (Some (fst x), snd x)) v) -∗ Q r) ⊢ wp (add_interfaces p v) Q)%I.
Proof.
  induction v as [|[u o] v IH]; intros p l Q Hn; cbn [add_interfaces List.map]; iIntros "[L K]".
  - iApply wp_ret. iApply "K". by rewrite app_nil_r.
  - iApply wp_bind. iApply wp_alloc. iIntros (nw) "N". iApply wp_bind. iApply (wp_interface_add p l nw [(Some u, o)]).
    { cbn [forallb]. rewrite andb_true_r. apply inew_iff. exists u. split; [done|].
      rewrite map_app -NoDup_ListNoDup in Hn. apply stdpp.list.NoDup_app in Hn as (_ & Hn & _). intros Hin. apply (Hn (Some u)).
      - by apply elem_of_list_In.
      - cbn. left. }
    iFrame "L". iSplitL "N"; [cbn [ilist chain]; iExists NULL; by iFrame|]. iIntros "L". iApply (IH _ (l ++ [(Some u, o)])).
    { rewrite -app_assoc. exact Hn. }
    iFrame "L". iIntros (r) "L". iApply "K". by rewrite -app_assoc.
Qed.
Definition default_uris : list string :=
  ["strings"; "body"; "relation"; "textual"; "comment"; "null"; "scatinfos"; "scatnames"; "arrays"; "coordinates"; "clay"; "dependence";
   "symbols"; "extbody"; "loop"; "pluto_unroll"; "region"; "annotation"].
Theorem C24_default_registry : ∀ (al : Allocator obj),
  runs_to osl_interface_get_default_registry_p ∅ (λ r h, ∃ l, stores_ifaces h r l ∧ unique_ifaces l ∧
    List.map fst l = List.map (λ s, Some (lit s)) default_uris).
Proof.
  intros al.
  assert (NoDup (List.map fst ([] ++ List.map (λ x, (Some (fst x), snd x)) default_interfaces))) as Hn.
  { apply NoDup_ListNoDup. apply (bool_decide_unpack _). vm_compute. exact I. }
  apply (runs_intro emp%I (λ r, ilist r (List.map (λ x, (Some (fst x), snd x)) default_interfaces))).
  - iIntros "_". iApply (wp_add_interfaces default_interfaces NULL []); [exact Hn|]. iSplit; [done|]. by iIntros (r) "$".
  - done.
  - intros r h H. eexists. split; [by apply ilist_spec|]. split; [|done]. split; [|exact Hn]. by repeat constructor.
Qed.
Print Assumptions C24_default_registry.
Theorem C24_default_registry_resolves : ∀ (al : Allocator obj) s, In s default_uris →
  runs_to (r <== osl_interface_get_default_registry_p ;; osl_interface_lookup_p r (Some (lit s))) ∅
    (λ q h, ∃ o n, h !! q = Some (CIface (Some (lit s)) o n)).
Proof.
  intros al s Hs. eapply runs_bind; [apply C24_default_registry|]. intros r h (l & Hl & Hu & Hm).
  eapply runs_weaken; [by apply C24_lookup|]. intros q h' (-> & x & Hx & Hq).
  destruct x as [[u' o]|]; cbn [first_such] in Hx.
  - destruct Hx as (_ & _ & _ & [= ->] & _). destruct Hq as (_ & n & Hq). by exists o, n.
  - exfalso. assert (In (Some (lit s)) (List.map fst l)) as Hin. { rewrite Hm. apply in_map_iff. by exists s. }
    apply in_map_iff in Hin as (x & Ex & Hin). rewrite List.Forall_forall in Hx. by apply (Hx x Hin).
Qed.
Print Assumptions C24_default_registry_resolves.

(** The copy of a registry. *)
Lemma iclone_ok l : ∀ c, Forall (λ x, fst x ≠ None) l → NoDup (List.map fst (c ++ l)) → iclone c l = Some (c ++ l).
Proof.
  induction l as [|x l IH]; intros c Hf Hn; cbn [iclone]; [by rewrite app_nil_r|].
  inversion Hf as [|? ? Hx Hl]; subst. destruct (fst x) as [u|] eqn:E; [|done].
  assert (inew c x = true) as ->.
  { apply inew_iff. exists u. split; [done|]. rewrite map_app -NoDup_ListNoDup in Hn. apply stdpp.list.NoDup_app in Hn as (_ & Hn & _). intros Hin. apply (Hn (Some u)).
    - by apply elem_of_list_In.
    - cbn. rewrite E. left. }
  rewrite IH; [by rewrite -app_assoc|done|by rewrite -app_assoc].
Qed.
Lemma iclone_none l : ∀ c, NoDup (List.map fst c) → ¬ (Forall (λ x, fst x ≠ None) l ∧ NoDup (List.map fst (c ++ l))) → iclone c l = None.
Proof.
  induction l as [|x l IH]; intros c Hc Hn; cbn [iclone].
  - exfalso. apply Hn. rewrite app_nil_r. by split.
  - destruct (inew c x) eqn:E; [|done]. apply inew_iff in E as (u & Ex & Hu). apply IH.
    + rewrite map_app. apply NoDup_ListNoDup. apply stdpp.list.NoDup_app. split; [by apply NoDup_ListNoDup|]. split; [|cbn; apply NoDup_singleton].
      intros a Ha Hin. cbn in Hin. apply elem_of_list_singleton in Hin as ->. rewrite Ex in Ha. by apply elem_of_list_In in Ha.
    + intros [H1 H2]. apply Hn. split; [constructor; [by rewrite Ex|done]|]. by rewrite -app_assoc in H2.
Qed.
Theorem C24_clone : ∀ (al : Allocator obj) h p l, unique_ifaces l → stores_ifaces h p l →
  runs_to (osl_interface_clone_p p) h (λ q h', ∃ hc, splits h' [h; hc] ∧ stores_ifaces hc q l).
Proof.
  intros al h p l [Hl1 Hl2] H.
  apply (runs_intro (ex h (ilist p l)) (λ q, ex h (ilist p l) ∗ ilist q l)%I).
  - iIntros "U". iApply (wp_interface_nclone h p l (-1) l); [by apply (iclone_ok l [])|]. iFrame "U". iIntros (q) "U C". iFrame.
  - split; [done|]. by apply ilist_spec.
  - intros q h' (h1 & h2 & -> & Hd & [-> H1] & H2). exists h2. split; [by apply splits_2|]. by apply ilist_spec.
Qed.
Print Assumptions C24_clone.
Theorem C24_nclone : ∀ (al : Allocator obj) h p l n, 0 ≤ n → unique_ifaces (firstn (Z.to_nat n) l) → stores_ifaces h p l →
  runs_to (osl_interface_nclone_p p n) h (λ q h', ∃ hc, splits h' [h; hc] ∧ stores_ifaces hc q (firstn (Z.to_nat n) l)).
Proof.
  intros al h p l n Hn [Hl1 Hl2] H.
  apply (runs_intro (ex h (ilist p l)) (λ q, ex h (ilist p l) ∗ ilist q (firstn (Z.to_nat n) l)))%I.
  - iIntros "U". iApply (wp_interface_nclone h p l n (firstn (Z.to_nat n) l)).
    { unfold wanted. destruct (Z.eqb_spec n (-1)); [lia|]. rewrite Z.sub_0_r. by apply (iclone_ok _ []). }
    iFrame "U". iIntros (q) "U C". iFrame.
  - split; [done|]. by apply ilist_spec.
  - intros q h' (h1 & h2 & -> & Hd & [-> H1] & H2). exists h2. split; [by apply splits_2|]. by apply ilist_spec.
Qed.
Print Assumptions C24_nclone.
Theorem C24_clone_stops : ∀ (al : Allocator obj) h p l, ¬ unique_ifaces l → stores_ifaces h p l → stops (osl_interface_clone_p p) h.
Proof.
  intros al h p l Hl H. apply (stops_intro (ex h (ilist p l))).
  - apply wpe_interface_nclone. apply (iclone_none l []); [constructor|]. exact Hl.
  - split; [done|]. by apply ilist_spec.
Qed.
Print Assumptions C24_clone_stops.

(** Equality of two interfaces: same URI, same functions. *)
Theorem C24_equal : ∀ h p q u1 o1 n1 u2 o2 n2,
  p ≠ NULL → q ≠ NULL → h !! p = Some (CIface (Some u1) o1 n1) → h !! q = Some (CIface (Some u2) o2 n2) →
  ∃ b, osl_interface_equal_p p q h = Ok (b, h) ∧ (b = true ↔ u1 = u2 ∧ o1 = o2).
Proof.
  intros h p q u1 o1 n1 u2 o2 n2 Np Nq Hp Hq. unfold osl_interface_equal_p. destruct (Z.eqb_spec p q) as [->|Hne].
  { exists true. split; [done|]. split; [|done]. intros _. rewrite Hp in Hq. by injection Hq as -> -> ->. }
  apply Z.eqb_neq in Np, Nq. unfold isnull. rewrite Np Nq. cbn [orb].
  unfold get_iface, pbind, load. rewrite Hp. cbn [ret]. rewrite Hq. cbn [ret].
  eexists. split; [done|]. by rewrite andb_true_iff str_eqb_iff Z.eqb_eq.
Qed.
Print Assumptions C24_equal.
(** Equality agrees with copying: a registry of one interface and its copy are equal. *)
Theorem C24_clone_equal : ∀ (al : Allocator obj) h p u o, stores_ifaces h p [(Some u, o)] →
  runs_to (q <== osl_interface_clone_p p ;; osl_interface_equal_p p q) h (λ b _, b = true).
Proof.
  intros al h p u o H. eapply runs_bind.
  { apply (C24_clone al h p [(Some u, o)]); [|done]. split; [by repeat constructor|]. cbn. constructor; [by intros []|constructor]. }
  intros q h' (hc & (-> & Hd)%splits_2 & Hc).
  destruct H as (n & hn & Np & (-> & Hd1)%splits_2 & _). destruct Hc as (m & hm & Nq & (-> & Hd2)%splits_2 & _).
  intros hf Hf.
  destruct (C24_equal ({[p := CIface (Some u) o n]} ∪ hn ∪ ({[q := CIface (Some u) o m]} ∪ hm) ∪ hf) p q u o n u o m) as (b & E & Hb).
  - done.
  - done.
  - apply lookup_union_Some_l, lookup_union_Some_l, lookup_union_Some_l, lookup_singleton.
  - apply lookup_union_Some_l, lookup_union_Some_r; [done|]. apply lookup_union_Some_l, lookup_singleton.
  - exists b, ({[p := CIface (Some u) o n]} ∪ hn ∪ ({[q := CIface (Some u) o m]} ∪ hm)). split; [done|]. split; [done|]. by apply Hb.
Qed.
Print Assumptions C24_clone_equal.
(** An interface without URI is compared with strcmp(NULL, ...): undefined. *)
Theorem C24_equal_null_uri_refuted : ∃ h p q, p ≠ NULL ∧ q ≠ NULL ∧ osl_interface_equal_p p q h = UB ∧
  h = {[1 := CIface None 0 NULL]} ∪ {[2 := CIface None 0 NULL]}.
Proof. exists ({[1 := CIface None 0 NULL]} ∪ {[2 := CIface None 0 NULL]}), 1, 2. split_and!; [done|done|by vm_compute|done]. Qed.
Print Assumptions C24_equal_null_uri_refuted.
