(** * MatProofs2: matrices in memory: elements, allocation, release *)
From stdpp Require Import gmap.
From iris.proofmode Require Import tactics.
From Coq Require Import ZifyBool ZifyNat.
From Verif Require Import Base IntModel VectorModel RelationModel Spec RelSpec LoopLemmas IntProofs RelationProofs HeapModel HeapObjects HeapSpec HeapLogic HeapProofs PayloadModel PayloadSpec PayloadProofs PayloadProofs2 MatModel MatSpec MatProofs.
Local Open Scope string_scope.
Local Open Scope list_scope.
Local Open Scope Z_scope.
Local Open Scope bi_scope.

(** ** Matrices as arrays *)
Definition shape (R C : Z) (m : list (list Z)) : Prop := (zlength m = R ∧ Forall (λ row, zlength row = C) m)%type.

Lemma nth_error_lookup' {A} (l : list A) n : nth_error l n = l !! n.
Proof. revert n. induction l as [|x l IH]; intros [|n]; try done. apply IH. Qed.
Lemma aget_inv {A} (l : list A) i x : aget l i = Ok x → (0 ≤ i < zlength l ∧ l !! Z.to_nat i = Some x)%type.
Proof.
  unfold aget. destruct (Z.ltb_spec i 0); [done|]. destruct (nth_error l (Z.to_nat i)) eqn:E; [|done]. intros [= ->].
  assert (Z.to_nat i < List.length l)%nat by (apply nth_error_Some; by rewrite E). unfold zlength. split; [lia|]. by rewrite -nth_error_lookup'.
Qed.
Lemma list_set_insert {A} (l : list A) n x : list_set n x l = <[n := x]> l.
Proof. revert n. induction l as [|y l IH]; intros [|n]; cbn; try done. by rewrite IH. Qed.
Lemma aset_inv {A} (l l' : list A) i x : aset l i x = Ok l' → (0 ≤ i < zlength l ∧ l' = <[Z.to_nat i := x]> l)%type.
Proof.
  unfold aset. destruct (Z.leb_spec 0 i), (Z.ltb_spec i (Z.of_nat (List.length l))); cbn; try done. intros [= <-]. unfold zlength. split; [lia|].
  apply list_set_insert.
Qed.
Lemma aget_not_err {A} (l : list A) i : aget l i ≠ Err.
Proof. unfold aget. destruct (i <? 0); [done|]. by destruct (nth_error _ _). Qed.
Lemma aset_not_err {A} (l : list A) i x : aset l i x ≠ Err.
Proof. unfold aset. by destruct (_ && _). Qed.
Lemma mget_not_err {A} (m : list (list A)) i j : mget m i j ≠ Err.
Proof. unfold mget. pose proof (aget_not_err m i). destruct (aget m i); cbn; try done. apply aget_not_err. Qed.
Lemma mset_not_err {A} (m : list (list A)) i j x : mset m i j x ≠ Err.
Proof.
  unfold mset. pose proof (aget_not_err m i). destruct (aget m i) as [row| | |]; cbn; try done. pose proof (aset_not_err row j x).
  destruct (aset row j x); cbn; try done. apply aset_not_err.
Qed.
Lemma concat_lookup C (m : list (list Z)) i row j (x : Z) : Forall (λ row, zlength row = C) m → m !! i = Some row → row !! j = Some x → concat m !! (i * Z.to_nat C + j)%nat = Some x.
Proof.
  intros H. revert i. induction H as [|r m Hr Hm IH]; intros [|i] Hi Hj; try done; cbn [concat lookup list_lookup] in *.
  - injection Hi as ->. by apply lookup_app_l_Some.
  - rewrite lookup_app_r; [|unfold zlength in Hr; lia]. replace (S i * Z.to_nat C + j - List.length r)%nat with (i * Z.to_nat C + j)%nat by (unfold zlength in Hr; lia). by apply IH.
Qed.
Lemma concat_insert C (m : list (list Z)) i row j (x : Z) : Forall (λ row, zlength row = C) m → m !! i = Some row → (j < List.length row)%nat →
  concat (<[i := <[j := x]> row]> m) = <[(i * Z.to_nat C + j)%nat := x]> (concat m).
Proof.
  intros H. revert i. induction H as [|r m Hr Hm IH]; intros [|i] Hi Hj; try done.
  - injection Hi as ->. cbn [concat insert list_insert]. rewrite insert_app_l; [done|lia].
  - cbn [concat insert list_insert]. change (list_insert i (<[j := x]> row) m) with (<[i := <[j := x]> row]> m). rewrite IH; [|done|done].
    replace (S i * Z.to_nat C + j)%nat with (List.length r + (i * Z.to_nat C + j))%nat by (unfold zlength in Hr; lia). by rewrite insert_app_r.
Qed.
Lemma mget_inv R C m i j x : shape R C m → mget m i j = Ok x →
  (0 ≤ i < R ∧ 0 ≤ j < C ∧ concat m !! Z.to_nat (i * C + j) = Some x)%type.
Proof.
  intros [L F]. unfold mget. destruct (aget m i) as [row| | |] eqn:E1; cbn; try done. intros E2. apply aget_inv in E1 as [H1 E1], E2 as [H2 E2].
  assert (zlength row = C) as Hr by (rewrite Forall_forall in F; apply F; apply elem_of_list_In; by eapply elem_of_list_lookup_2).
  split_and!; try lia. replace (Z.to_nat (i * C + j)) with (Z.to_nat i * Z.to_nat C + Z.to_nat j)%nat by nia. by eapply concat_lookup.
Qed.
Lemma mset_inv R C m m' i j x : shape R C m → mset m i j x = Ok m' →
  (0 ≤ i < R ∧ 0 ≤ j < C ∧ concat m' = <[Z.to_nat (i * C + j) := x]> (concat m) ∧ shape R C m')%type.
Proof.
  intros [L F]. unfold mset. destruct (aget m i) as [row| | |] eqn:E1; cbn; try done. destruct (aset row j x) as [row'| | |] eqn:E2; cbn; try done. intros E3.
  apply aget_inv in E1 as [H1 E1]. apply aset_inv in E2 as [H2 ->]. apply aset_inv in E3 as [H3 ->].
  assert (zlength row = C) as Hr by (rewrite Forall_forall in F; apply F; apply elem_of_list_In; by eapply elem_of_list_lookup_2).
  split_and!; try lia.
  - replace (Z.to_nat (i * C + j)) with (Z.to_nat i * Z.to_nat C + Z.to_nat j)%nat by nia. apply concat_insert; [done|done|unfold zlength in *; lia].
  - split; [unfold zlength in *; by rewrite insert_length|]. apply Forall_insert; [done|]. unfold zlength in *. by rewrite insert_length.
Qed.
Lemma concat_length R C m : shape R C m → zlength (concat m) = (R * C)%Z.
Proof.
  intros [L F]. subst R. unfold zlength. induction F as [|r m Hr Hm IH]; [done|]. cbn [concat List.length]. rewrite app_length. unfold zlength in Hr. rewrite Nat2Z.inj_add Nat2Z.inj_succ IH Hr. lia.
Qed.
Lemma row_starts_lookup q R C i : (0 ≤ i < R)%Z → row_starts q R C !! Z.to_nat i = Some (Some (q, i * C)%Z).
Proof.
  intros H. unfold row_starts. change (List.map ?f ?l) with (f <$> l). rewrite list_lookup_fmap lookup_seq_lt; [|lia]. cbn. rewrite Z2Nat.id; [done|lia].
Qed.

Section MAT.
Context {cfg : config} {al : Allocator obj}.

(** ** Elements *)
Lemma wp_entry_own h m q R C i j (Q : _ → oprop) : h !! m = Some (CBlock (BRows (row_starts q R C))) → (0 ≤ i < R)%Z →
  own h ∗ (own h -∗ Q (q, i * C + j)%Z) ⊢ wp (entry m i j) Q.
Proof.
  iIntros (E Hi) "[H K]". iApply wp_bind. iApply wp_bind. iApply wp_bind. iApply wp_get_block_own; [done|]. iFrame "H". iIntros "H".
  iApply wp_ret. replace (Z.ltb i 0) with false by lia. rewrite row_starts_lookup; [|done]. iApply wp_ret. iApply wp_ret. by iApply "K".
Qed.
Lemma wp_row_at m q R C i (Q : _ → oprop) : (0 ≤ i < R)%Z →
  m ↦ CBlock (BRows (row_starts q R C)) ∗ (m ↦ CBlock (BRows (row_starts q R C)) -∗ Q (q, i * C)%Z) ⊢ wp (row_at m i) Q.
Proof.
  iIntros (Hi) "[H K]". iApply wp_bind. iApply wp_bind. iApply wp_get_block. iFrame "H". iIntros "H".
  iApply wp_ret. replace (Z.ltb i 0) with false by lia. rewrite row_starts_lookup; [|done]. iApply wp_ret. by iApply "K".
Qed.
Lemma wp_entry m q R C i j (Q : _ → oprop) : (0 ≤ i < R)%Z →
  m ↦ CBlock (BRows (row_starts q R C)) ∗ (m ↦ CBlock (BRows (row_starts q R C)) -∗ Q (q, i * C + j)%Z) ⊢ wp (entry m i j) Q.
Proof. iIntros (Hi) "[H K]". iApply wp_bind. iApply wp_row_at; [done|]. iFrame "H". iIntros "H". iApply wp_ret. by iApply "K". Qed.

Lemma sees_matrix h p m R C mat i j x : sees h (m_matrix p m R C mat) → mget mat i j = Ok x →
  (∃ q, h !! m = Some (CBlock (BRows (row_starts q R C))) ∧ sees h (m_array p q (concat mat)) ∧ shape R C mat)%type.
Proof.
  unfold m_matrix. destruct (_ || _); intros S E.
  - apply sees_nothing in S as [_ ->]. unfold mget, aget in E. destruct (i <? 0); [done|]. by destruct (Z.to_nat i).
  - apply sees_somewhere in S as (q & [[S1 _]%sees_cell [S2 S3%sees_nothing]%sees_beside]%sees_beside). by exists q.
Qed.
Lemma m_matrix_open p m R C mat i j x mat' : mset mat i j x = Ok mat' →
  M (m_matrix p m R C mat) ⊢ ∃ q, <affine> ⌜shape R C mat⌝ ∗ m ↦ CBlock (BRows (row_starts q R C)) ∗ M (m_array p q (concat mat)) ∗
    (∀ mat'', <affine> ⌜shape R C mat''⌝ -∗ m ↦ CBlock (BRows (row_starts q R C)) -∗ M (m_array p q (concat mat'')) -∗ M (m_matrix p m R C mat'')).
Proof.
  intros E. unfold m_matrix. destruct (_ || _).
  - iIntros "%H". destruct H as [_ ->]. unfold mset, aget in E. destruct (i <? 0); [done|]. by destruct (Z.to_nat i).
  - iIntros "H". iDestruct "H" as (q) "(A & B & %S)". iExists q. rewrite M_cell. iFrame "A B". iSplitR; [done|]. iIntros (mat'') "%S' A B".
    iExists q. rewrite !M_beside M_cell M_nothing. by iFrame.
Qed.
Lemma sees_known h p b l : sees h (m_array p b l) → l ≠ [] → osl_int_is_precision_supported p = true.
Proof.
  intros (cs & [_ S]%sees_beside)%sees_somewhere Hl. destruct l as [|z l]; [done|].
  destruct (sees_coefs _ _ _ _ 0%nat z S eq_refl) as (c & _ & [H%sees_nothing _]%sees_beside). done.
Qed.

(** One number copied from one matrix to another. *)
Lemma sim_copy h p ms R C src md R' C' si sj di dj dst : sees h (m_matrix p ms R C src) →
  own h ∗ M (m_matrix p md R' C' dst) ⊢
  sim (copy_cell p src si sj dst di dj) (copy_m p ms si sj md di dj) (λ dst' _, own h ∗ M (m_matrix p md R' C' dst')).
Proof.
  intros S. unfold copy_cell. destruct (mget src si sj) as [x| | |] eqn:E1; cbn [bind]; [|by destruct (mget_not_err src si sj)|by iIntros "_"..].
  destruct (sees_matrix _ _ _ _ _ _ _ _ _ S E1) as (q & Em & Sq & Sh). destruct (mget_inv _ _ _ _ _ _ Sh E1) as (Hi & Hj & Ex).
  assert (osl_int_is_precision_supported p = true) as Hp. { eapply sees_known; [done|]. intros E. by rewrite E in Ex. }
  assert (osl_int_assign p x = Ok x) as Ea by by apply (pswitch_ok p).
  rewrite Ea. cbn [bind]. destruct (mset dst di dj x) as [dst'| | |] eqn:E2; cbn [sim]; [|by destruct (mset_not_err dst di dj x)|by iIntros "_"..].
  iIntros "[H D]". iDestruct (m_matrix_open _ _ _ _ _ _ _ _ _ E2 with "D") as (qd) "(%Sd & A & B & K)".
  destruct (mset_inv _ _ _ _ _ _ _ Sd E2) as (Hi' & Hj' & Ec & Sd').
  iApply wp_bind. iApply wp_entry; [done|]. iFrame "A". iIntros "A". iApply wp_bind. iApply wp_entry_own; [done|done|]. iFrame "H". iIntros "H".
  iApply wp_bind. iApply wp_number_own; [done|nia|done|]. iFrame "H". iIntros "H". iApply wp_bind. iApply wp_lift; [done|].
  iApply (wp_renumber p qd (concat dst)); [rewrite (concat_length _ _ _ Sd); nia|]. iFrame "B". iIntros "B". rewrite -Ec. iFrame "H". iApply ("K" with "[//] A B").
Qed.

(** ** Allocation *)
Lemma wp_init_set_si p b cs k z (Q : _ → oprop) : osl_int_is_precision_supported p = true → (0 ≤ k < Z.of_nat (List.length cs))%Z →
  b ↦ CBlock (BCells cs) ∗ (∀ c, b ↦ CBlock (BCells (<[Z.to_nat k := Some c]> cs)) -∗ M (m_coef p c z) -∗ Q tt) ⊢ wp (osl_int_init_set_si_m p (b, k) z) Q.
Proof.
  iIntros (Hp Hk) "[B K]". iApply wp_bind. iApply (wp_lift _ z); [by apply (pswitch_ok p)|]. rewrite (supported_mp p Hp). unfold m_coef. destruct (Z.eqb p PRECISION_MP) eqn:Ep.
  - iApply wp_bind. iApply wp_malloc. iIntros (d) "D". iApply wp_bind. iApply wp_malloc. iIntros (q) "A". iApply wp_set_coef; [done|]. iFrame "B". iIntros "B".
    iApply ("K" with "B"). rewrite M_beside M_nothing M_somewhere. iSplitR; [done|]. iExists (q, d). rewrite !M_beside !M_cell M_nothing. by iFrame.
  - iApply wp_set_coef; [done|]. iFrame "B". iIntros "B". iApply ("K" with "B"). rewrite M_beside !M_nothing. done.
Qed.
Lemma wpe_init_set_si p b k z P : osl_int_is_precision_supported p = false → P ⊢ wpe (osl_int_init_set_si_m p (b, k) z).
Proof. intros Hp. unfold osl_int_init_set_si_m, osl_int_init_set_si. rewrite pswitch_err; [|done]. iIntros "H". iApply (wpe_bind_l (lift Err)). by iApply (wpe_lift with "H"). Qed.
Lemma m_coefs_snoc p cs l c z : M (m_coefs p cs l) ∗ M (m_coef p c z) ⊢ M (m_coefs p (cs ++ [c]) (l ++ [z])).
Proof.
  revert l. induction cs as [|c0 cs IH]; intros [|z0 l]; cbn [m_coefs app].
  - iIntros "[A H]". rewrite M_beside. iFrame.
  - iIntros "[%H H]". done.
  - iIntros "[%H H]". done.
  - iIntros "[[A B] C]". rewrite M_beside. iFrame "A". iApply IH. iFrame.
Qed.
(** The cells of an array filled one after the other. *)
Definition filled (p : Z) (b : ptr) (n : nat) (l : list Z) : oprop :=
  ∃ cs, b ↦ CBlock (BCells (List.map Some cs ++ repeat None (n - List.length l))) ∗ M (m_coefs p cs l).
Lemma filled_step p b n l z : osl_int_is_precision_supported p = true → (List.length l < n)%nat →
  filled p b n l ⊢ wp (osl_int_init_set_si_m p (b, zlength l) z) (λ _, filled p b n (l ++ [z])).
Proof.
  iIntros (Hp Hl) "H". iDestruct "H" as (cs) "[B C]". iDestruct (m_coefs_length with "C") as "[%E C]". iApply (wp_init_set_si p b (List.map Some cs ++ repeat None (n - List.length l)) (zlength l) z); [done| |].
  - rewrite app_length map_length repeat_length. unfold zlength. lia.
  - iFrame "B". iIntros (c) "B D". iExists (cs ++ [c]). iSplitL "B"; [|iApply m_coefs_snoc; iFrame].
    unfold zlength. rewrite Nat2Z.id -E insert_app_r_alt; [|by rewrite map_length]. rewrite map_length Nat.sub_diag. rewrite map_app -app_assoc. cbn [List.map app].
    replace (n - List.length cs)%nat with (S (n - S (List.length cs))) by lia. cbn [repeat insert list_insert]. rewrite app_length. cbn [List.length].
    by replace (n - (List.length l + 1))%nat with (n - S (List.length cs))%nat by lia.
Qed.
Lemma filled_start p b n : b ↦ CBlock (BCells (repeat None n)) ⊢ filled p b n [].
Proof. iIntros "B". iExists []. cbn. rewrite Nat.sub_0_r. iFrame. done. Qed.
Lemma filled_end p b l : filled p b (List.length l) l ⊢ M (m_array p b l).
Proof. iIntros "H". iDestruct "H" as (cs) "[B C]". rewrite Nat.sub_diag app_nil_r. iExists cs. rewrite M_beside M_cell. iFrame. Qed.
End MAT.
