(** * HeapLogic: separation logic over exact heaps

    A proof tool only: the theorems of PropHeap.v are restated on plain heaps.
    [hprop] are predicates on heaps; they form a (linear) BI, so that the proof
    mode of Iris applies.  [wp c Q] says that [c], run on any larger heap, ends
    normally, leaves the rest of the heap alone, and turns its own part into one
    satisfying [Q]. *)
From stdpp Require Import gmap.
From iris.bi Require Import interface.
From iris.proofmode Require Import tactics.
From Verif Require Import Base HeapModel.

Section LOGIC.
Context {V : Type}.
Local Notation heap := (gmap Z V).

Record hprop := HProp { hholds :> heap -> Prop }.

Section ofe.
  Inductive hprop_equiv' (P Q : hprop) : Prop := { hprop_in_equiv : ∀ h, P h ↔ Q h }.
  Local Instance hprop_equiv : Equiv hprop := hprop_equiv'.
  Local Instance hprop_equivalence : Equivalence (≡@{hprop}).
  Proof. split; repeat destruct 1; constructor; naive_solver. Qed.
  Canonical Structure hpropO := discreteO hprop.
End ofe.

Inductive hprop_entails (P Q : hprop) : Prop := { hprop_in_entails : ∀ h, P h → Q h }.

Definition hp_emp : hprop := {| hholds h := h = ∅ |}.
Definition hp_pure (φ : Prop) : hprop := {| hholds _ := φ |}.
Definition hp_and (P Q : hprop) : hprop := {| hholds h := P h ∧ Q h |}.
Definition hp_or (P Q : hprop) : hprop := {| hholds h := P h ∨ Q h |}.
Definition hp_impl (P Q : hprop) : hprop := {| hholds h := P h → Q h |}.
Definition hp_forall {A} (Ψ : A → hprop) : hprop := {| hholds h := ∀ a, Ψ a h |}.
Definition hp_exist {A} (Ψ : A → hprop) : hprop := {| hholds h := ∃ a, Ψ a h |}.
Definition hp_sep (P Q : hprop) : hprop :=
  {| hholds h := ∃ h1 h2, h = h1 ∪ h2 ∧ h1 ##ₘ h2 ∧ P h1 ∧ Q h2 |}.
Definition hp_wand (P Q : hprop) : hprop :=
  {| hholds h := ∀ h', h ##ₘ h' → P h' → Q (h ∪ h') |}.
Definition hp_persistently (P : hprop) : hprop := {| hholds h := P ∅ |}.
Definition hp_later (P : hprop) : hprop := P.

Local Lemma hprop_bi_mixin : BiMixin hprop_entails hp_emp hp_pure hp_and hp_or hp_impl
  (@hp_forall) (@hp_exist) hp_sep hp_wand hp_persistently.
Proof.
  split.
  - split; [by intros P; constructor|]. intros P Q R [H1] [H2]. constructor. naive_solver.
  - intros P Q. split.
    + intros [H]. split; constructor; naive_solver.
    + intros [[H1] [H2]]. constructor. naive_solver.
  - intros n φ1 φ2 H. constructor. naive_solver.
  - intros n P1 P2 [HP] Q1 Q2 [HQ]. constructor. intros h. simpl. by rewrite HP HQ.
  - intros n P1 P2 [HP] Q1 Q2 [HQ]. constructor. intros h. simpl. by rewrite HP HQ.
  - intros n P1 P2 [HP] Q1 Q2 [HQ]. constructor. intros h. simpl. by rewrite HP HQ.
  - intros A n Φ1 Φ2 H. constructor. intros h. simpl. split; intros X a; apply H, X.
  - intros A n Φ1 Φ2 H. constructor. intros h. simpl. split; intros [a X]; exists a; apply H, X.
  - intros n P1 P2 [HP] Q1 Q2 [HQ]. constructor. intros h. simpl.
    split; intros (h1 & h2 & ? & ? & ? & ?); exists h1, h2; naive_solver.
  - intros n P1 P2 [HP] Q1 Q2 [HQ]. constructor. intros h. simpl.
    split; intros X h' Hd HP'; apply HQ, X; naive_solver.
  - intros n P1 P2 [HP]. constructor. intros h. simpl. apply HP.
  - intros φ P H. constructor. naive_solver.
  - intros φ P H. constructor. intros h Hφ. destruct (H Hφ) as [X]. by apply X.
  - intros P Q. constructor. naive_solver.
  - intros P Q. constructor. naive_solver.
  - intros P Q R [H1] [H2]. constructor. naive_solver.
  - intros P Q. constructor. naive_solver.
  - intros P Q. constructor. naive_solver.
  - intros P Q R [H1] [H2]. constructor. naive_solver.
  - intros P Q R [H]. constructor. naive_solver.
  - intros P Q R [H]. constructor. naive_solver.
  - intros A P Ψ H. constructor. intros h X a. by destruct (H a) as [Y]; apply Y.
  - intros A Ψ a. constructor. naive_solver.
  - intros A Ψ a. constructor. naive_solver.
  - intros A Φ Q H. constructor. intros h [a X]. by destruct (H a) as [Y]; apply Y.
  - intros P P' Q Q' [H1] [H2]. constructor. intros h (h1 & h2 & ? & ? & ? & ?). exists h1, h2. naive_solver.
  - intros P. constructor. intros h HP. exists ∅, h. rewrite left_id_L. split_and!; [done|apply map_disjoint_empty_l|done|done].
  - intros P. constructor. intros h (h1 & h2 & -> & ? & -> & ?). by rewrite left_id_L.
  - intros P Q. constructor. intros h (h1 & h2 & -> & ? & ? & ?). exists h2, h1.
    split_and!; [by apply map_union_comm|done..].
  - intros P Q R. constructor. intros h (h12 & h3 & -> & Hd & (h1 & h2 & -> & Hd' & ? & ?) & ?).
    exists h1, (h2 ∪ h3). rewrite assoc_L. split_and!; [done|solve_map_disjoint|done|].
    exists h2, h3. split_and!; [done|solve_map_disjoint|done|done].
  - intros P Q R [H]. constructor. intros h HP h' Hd HQ. apply H. exists h, h'. done.
  - intros P Q R [H]. constructor. intros h (h1 & h2 & -> & Hd & ? & ?). by apply (H h1).
  - intros P Q [H]. constructor. intros h. apply H.
  - intros P. constructor. done.
  - constructor. done.
  - intros P Q. constructor. done.
  - intros A Ψ. constructor. done.
  - intros P Q. constructor. intros h (h1 & h2 & -> & Hd & ? & ?). done.
  - intros P Q. constructor. intros h [HP HQ]. exists ∅, h. rewrite left_id_L.
    split_and!; [done|apply map_disjoint_empty_l|done|done].
Qed.

Local Lemma hprop_bi_later_mixin : BiLaterMixin hprop_entails hp_pure hp_or hp_impl
  (@hp_forall) (@hp_exist) hp_sep hp_persistently hp_later.
Proof. eapply bi_later_mixin_id; [done|apply hprop_bi_mixin]. Qed.

Canonical Structure hpropI : bi := {|
  bi_ofe_mixin := ofe_mixin_of hprop;
  bi_bi_mixin := hprop_bi_mixin;
  bi_bi_later_mixin := hprop_bi_later_mixin |}.

Global Instance hprop_pure_forall : BiPureForall hpropI.
Proof. intros A φ. constructor. done. Qed.


(** ** Assertions on cells *)
Definition pointsto (p : ptr) (v : V) : hprop := {| hholds h := h = {[p := v]} ∧ p ≠ NULL |}.
Definition size_ge (k : nat) : hprop := {| hholds h := (k ≤ size h)%nat |}.

Lemma pointsto_not_null p v : pointsto p v ⊢ ⌜p ≠ NULL⌝.
Proof. constructor. by intros h [_ ?]. Qed.
Lemma pointsto_excl p v w : pointsto p v ∗ pointsto p w ⊢ False.
Proof.
  constructor. intros h (h1 & h2 & -> & Hd & [-> _] & [-> _]).
  apply map_disjoint_singleton_l in Hd. by rewrite lookup_singleton in Hd.
Qed.
Lemma size_ge_0 P : P ⊢ size_ge 0.
Proof. constructor. intros h _. simpl. lia. Qed.
Lemma size_ge_sep P Q a b : (P ⊢ size_ge a) → (Q ⊢ size_ge b) → P ∗ Q ⊢ size_ge (a + b).
Proof.
  intros [HP] [HQ]. constructor. intros h (h1 & h2 & -> & Hd & H1 & H2). apply HP in H1. apply HQ in H2.
  cbn in *. rewrite map_size_disj_union; [lia|done].
Qed.
Lemma size_ge_cell p v : pointsto p v ⊢ size_ge 1.
Proof. constructor. intros h [-> _]. simpl. by rewrite map_size_singleton. Qed.
Lemma size_ge_le a b : (a ≤ b)%nat → size_ge b ⊢ size_ge a.
Proof. intros H. constructor. intros h X. cbn in *. lia. Qed.
Lemma size_ge_frame a Q : size_ge a ∗ Q ⊢ size_ge a.
Proof.
  constructor. intros h (h1 & h2 & -> & Hd & H1 & H2). cbn in *. rewrite map_size_disj_union; [lia|done].
Qed.

(** ** Weakest preconditions *)
Definition wp {A} (c : prog V A) (Q : A → hprop) : hprop :=
  {| hholds h := ∀ hf, h ##ₘ hf → ∃ a h', c (h ∪ hf) = Ok (a, h' ∪ hf) ∧ h' ##ₘ hf ∧ Q a h' |}.

Lemma wp_ret {A} (a : A) Q : Q a ⊢ wp (ret a) Q.
Proof. constructor. intros h H hf Hd. exists a, h. done. Qed.
Lemma wp_lift {A} (x : res A) a Q : x = Ok a → Q a ⊢ wp (lift x) Q.
Proof. intros ->. constructor. intros h H hf Hd. exists a, h. done. Qed.
Lemma wp_bind {A B} (c : prog V A) (f : A → prog V B) Q : wp c (λ a, wp (f a) Q) ⊢ wp (pbind c f) Q.
Proof.
  constructor. intros h H hf Hd. destruct (H hf Hd) as (a & h' & E & Hd' & H'). 
  destruct (H' hf Hd') as (b & h'' & E' & Hd'' & H''). exists b, h''. unfold pbind. rewrite E. done.
Qed.
Lemma wp_wand {A} (c : prog V A) Q R : wp c Q ∗ (∀ a, Q a -∗ R a) ⊢ wp c R.
Proof.
  constructor. intros h (h1 & h2 & -> & Hd & H1 & H2) hf Hf.
  destruct (H1 (h2 ∪ hf)) as (a & h' & E & Hd' & HQ); [solve_map_disjoint|].
  exists a, (h' ∪ h2). rewrite -!assoc_L. split_and!; [done|solve_map_disjoint|].
  rewrite map_union_comm; [|solve_map_disjoint]. by apply (H2 a); [solve_map_disjoint|].
Qed.
Lemma wp_load p v Q : pointsto p v ∗ (pointsto p v -∗ Q v) ⊢ wp (load p) Q.
Proof.
  constructor. intros h (h1 & h2 & -> & Hd & [-> Hn] & H2) hf Hf.
  exists v, ({[p := v]} ∪ h2). split_and!.
  - unfold load. rewrite lookup_union_l'; [|rewrite lookup_union_l' ?lookup_singleton; eauto].
    by rewrite lookup_union_l' ?lookup_singleton; [|eauto].
  - done.
  - rewrite map_union_comm; [|done]. apply (H2 {[p := v]}); [done|]. done.
Qed.
Lemma wp_store p v w Q : pointsto p v ∗ (pointsto p w -∗ Q tt) ⊢ wp (store p w) Q.
Proof.
  constructor. intros h (h1 & h2 & -> & Hd & [-> Hn] & H2) hf Hf.
  assert (Hd2 : {[p := w]} ##ₘ h2) by (apply map_disjoint_singleton_l; apply map_disjoint_singleton_l in Hd; done).
  exists tt, ({[p := w]} ∪ h2). split_and!.
  - unfold store. rewrite lookup_union_l'; [|rewrite lookup_union_l' ?lookup_singleton; eauto].
    rewrite lookup_union_l' ?lookup_singleton; [|eauto].
    rewrite -!assoc_L -!insert_union_singleton_l insert_insert. done.
  - apply map_disjoint_union_l in Hf. destruct Hf as [Hf1 Hf2]. apply map_disjoint_union_l. split; [|done].
    apply map_disjoint_singleton_l. by apply map_disjoint_singleton_l in Hf1.
  - rewrite map_union_comm; [|done]. apply (H2 {[p := w]}); [done|]. done.
Qed.
Lemma wp_alloc `{Allocator V} v Q : (∀ p, pointsto p v -∗ Q p) ⊢ wp (alloc v) Q.
Proof.
  constructor. intros h H' hf Hd. destruct (pick_ok (h ∪ hf)) as [Hn Hp]. unfold alloc. set (p := pick (h ∪ hf)) in *.
  assert (h !! p = None ∧ hf !! p = None) as [H1 H2] by (by apply lookup_union_None in Hp).
  exists p, ({[p := v]} ∪ h). split_and!.
  - by rewrite -assoc_L -insert_union_singleton_l.
  - apply map_disjoint_union_l. split; [|done]. by apply map_disjoint_singleton_l.
  - rewrite map_union_comm; [|by apply map_disjoint_singleton_l]. apply (H' p {[p := v]}); [|done].
    by apply map_disjoint_singleton_r.
Qed.
Lemma wp_free p v Q : pointsto p v ∗ Q tt ⊢ wp (free p) Q.
Proof.
  constructor. intros h (h1 & h2 & -> & Hd & [-> Hn] & H2) hf Hf. exists tt, h2.
  assert (Hd1 : h2 !! p = None) by (by apply map_disjoint_singleton_l in Hd).
  assert (Hd2 : hf !! p = None).
  { apply map_disjoint_union_l in Hf. destruct Hf as [Hf1 _]. by apply map_disjoint_singleton_l in Hf1. }
  split_and!.
  - unfold free. destruct (Z.eqb_spec p NULL); [done|].
    rewrite lookup_union_l'; [|rewrite lookup_union_l' ?lookup_singleton; eauto].
    rewrite lookup_union_l' ?lookup_singleton; [|eauto].
    rewrite -assoc_L -insert_union_singleton_l delete_insert; [done|]. by apply lookup_union_None.
  - by apply map_disjoint_union_l in Hf as [_ ?].
  - done.
Qed.
Lemma wp_free_null Q : Q tt ⊢ wp (free NULL) Q.
Proof. constructor. intros h H hf Hd. exists tt, h. done. Qed.
Lemma wp_loop {A} (k : nat) (f : nat → prog V A) Q :
  size_ge k ∧ (∀ n, ⌜k < n⌝%nat → wp (f n) Q) ⊢ wp (loop f) Q.
Proof.
  constructor. intros h [Hs H] hf Hd. unfold loop. apply H; [|done].
  change (k ≤ size h)%nat in Hs. change (k < S (size (h ∪ hf)))%nat. rewrite map_size_disj_union; [lia|done].
Qed.
Lemma wp_loop_on {A} (k : nat) P R (f : nat → prog V A) Q :
  (P ⊢ size_ge k) → (∀ n, (k < n)%nat → P ∗ R ⊢ wp (f n) Q) → P ∗ R ⊢ wp (loop f) Q.
Proof.
  intros [HP] H. constructor. intros h (h1 & h2 & -> & Hd & H1 & H2) hf Hf. unfold loop.
  assert (k < S (size ((h1 ∪ h2) ∪ hf)))%nat as Hk.
  { pose proof (HP _ H1) as Hs. change (k ≤ size h1)%nat in Hs. rewrite !map_size_disj_union; [lia|done|done]. }
  destruct (H _ Hk) as [X]. apply X; [|done]. exists h1, h2. done.
Qed.
(** Adequacy: from the logic to plain heaps. *)
Lemma wp_run {A} (c : prog V A) P Q h hf : (P ⊢ wp c Q) → P h → h ##ₘ hf →
  ∃ a h', c (h ∪ hf) = Ok (a, h' ∪ hf) ∧ h' ##ₘ hf ∧ Q a h'.
Proof. intros [H] HP Hd. by apply (H h HP hf). Qed.

(** ** Exact heaps: [P] on exactly the heap [h] *)
Definition ex (h : heap) (P : hprop) : hprop := {| hholds h' := h' = h ∧ P h |}.
Lemma ex_intro P : P ⊢ ∃ h, ex h P.
Proof. constructor. intros h H. exists h. done. Qed.
Lemma ex_elim h P : ex h P ⊢ P.
Proof. constructor. by intros h' [-> H]. Qed.
Lemma ex_run {A} (c : prog V A) h P Q hf : (ex h P ⊢ wp c Q) → P h → h ##ₘ hf →
  ∃ a h', c (h ∪ hf) = Ok (a, h' ∪ hf) ∧ h' ##ₘ hf ∧ Q a h'.
Proof. intros [H] HP Hd. by apply (H h (conj eq_refl HP) hf). Qed.
Lemma ex_pure h P φ : (P ⊢ ⌜φ⌝) → ex h P ⊢ <affine> ⌜φ⌝ ∗ ex h P.
Proof.
  intros [HP]. constructor. intros h' [-> H]. exists ∅, h. rewrite left_id_L. split_and!; [done|apply map_disjoint_empty_l| |done].
  split; [done|]. by apply (HP h).
Qed.
Lemma ex_self h P : ex h P ⊢ <affine> ⌜P h⌝ ∗ ex h P.
Proof.
  constructor. intros h' [-> H]. exists ∅, h. rewrite left_id_L. split_and!; [done|apply map_disjoint_empty_l|by split|done].
Qed.
Lemma ex_sep_intro h1 h2 P Q : ex h1 P ∗ ex h2 Q ⊢ ex (h1 ∪ h2) (P ∗ Q).
Proof. constructor. intros h (h1' & h2' & -> & Hd & [-> H1] & [-> H2]). split; [done|]. exists h1, h2. done. Qed.
Lemma ex_sep_elim h P Q : ex h (P ∗ Q) ⊢ ∃ h1 h2, ex h1 P ∗ ex h2 Q ∗ <affine> ⌜h = h1 ∪ h2⌝ ∗ <affine> ⌜h1 ##ₘ h2⌝.
Proof.
  constructor. intros h' [-> (h1 & h2 & -> & Hd & H1 & H2)]. exists h1, h2. exists h1, h2. split_and!; [done|done|done|].
  exists h2, ∅. rewrite right_id_L. split_and!; [done|apply map_disjoint_empty_r|done|].
  exists ∅, ∅. rewrite right_id_L. split_and!; [done|apply map_disjoint_empty_r|done|done].
Qed.
Lemma ex_exist_elim {A} h (P : A → hprop) : ex h (∃ x, P x) ⊢ ∃ x, ex h (P x).
Proof. constructor. intros h' [-> [x H]]. exists x. done. Qed.
Lemma ex_exist_intro {A} h (P : A → hprop) x : ex h (P x) ⊢ ex h (∃ x, P x).
Proof. constructor. intros h' [-> H]. split; [done|]. exists x. done. Qed.
(** Assertions that hold of one heap at most. *)
Class Precise (P : hprop) := precise : ∀ h1 h2, P h1 → P h2 → h1 = h2.
Global Instance pointsto_precise p v : Precise (pointsto p v).
Proof. by intros h1 h2 [-> _] [-> _]. Qed.
Global Instance affine_pure_precise φ : Precise (<affine> ⌜φ⌝ : hpropI)%I.
Proof. intros h1 h2 [-> _] [-> _]. done. Qed.
Lemma ex_precise_intro h P `{!Precise P} : P h → P ⊢ ex h P.
Proof. intros H. constructor. intros h' H'. split; [by apply precise|done]. Qed.

(** ** Programs that stop with an error *)
Definition wpe {A} (c : prog V A) : hprop := {| hholds h := ∀ hf, h ##ₘ hf → c (h ∪ hf) = Err |}.
Lemma wpe_lift {A} P : P ⊢ wpe (lift (A:=A) Err).
Proof. constructor. done. Qed.
Lemma wpe_bind_l {A B} (c : prog V A) (f : A → prog V B) : wpe c ⊢ wpe (pbind c f).
Proof. constructor. intros h H hf Hd. unfold pbind. by rewrite (H hf Hd). Qed.
Lemma wpe_bind {A B} (c : prog V A) (f : A → prog V B) : wp c (λ a, wpe (f a)) ⊢ wpe (pbind c f).
Proof.
  constructor. intros h H hf Hd. destruct (H hf Hd) as (a & h' & E & Hd' & H'). unfold pbind. rewrite E. by apply H'.
Qed.
Lemma wpe_frame {A} (c : prog V A) R : wpe c ∗ R ⊢ wpe c.
Proof.
  constructor. intros h (h1 & h2 & -> & Hd & H1 & H2) hf Hf. rewrite -assoc_L. apply H1. solve_map_disjoint.
Qed.
Lemma wpe_loop_on {A} (k : nat) P R (f : nat → prog V A) :
  (P ⊢ size_ge k) → (∀ n, (k < n)%nat → P ∗ R ⊢ wpe (f n)) → P ∗ R ⊢ wpe (loop f).
Proof.
  intros [HP] H. constructor. intros h (h1 & h2 & -> & Hd & H1 & H2) hf Hf. unfold loop.
  assert (k < S (size ((h1 ∪ h2) ∪ hf)))%nat as Hk.
  { pose proof (HP _ H1) as Hs. change (k ≤ size h1)%nat in Hs. rewrite !map_size_disj_union; [lia|done|done]. }
  destruct (H _ Hk) as [X]. apply X; [|done]. exists h1, h2. done.
Qed.

End LOGIC.
Global Arguments hprop : clear implicits.
Global Arguments hpropI : clear implicits.
