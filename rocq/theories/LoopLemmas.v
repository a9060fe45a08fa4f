(** * Lemmas on loops and matrices *)
From Coq Require Import ZifyBool ZifyNat.
From Verif Require Import Base IntModel Spec.

(** ** Loops *)
Lemma cfor_empty {S} lo hi (body : Z -> S -> res S) s : hi <= lo -> cfor lo hi body s = Ok s.
Proof. intros H. unfold cfor. replace (Z.to_nat (hi - lo)) with O by lia. reflexivity. Qed.

Lemma cfor_step {S} lo hi (body : Z -> S -> res S) s : lo < hi ->
  cfor lo hi body s = (s' <- body lo s ;; cfor (lo + 1) hi body s').
Proof.
  intros H. unfold cfor. replace (Z.to_nat (hi - lo)) with (Datatypes.S (Z.to_nat (hi - (lo + 1)))) by lia.
  reflexivity.
Qed.

Lemma cfor_inv {S} (I : Z -> S -> Prop) lo hi (body : Z -> S -> res S) s :
  lo <= hi -> I lo s ->
  (forall i s, lo <= i < hi -> I i s -> exists s', body i s = Ok s' /\ I (i + 1) s') ->
  exists s', cfor lo hi body s = Ok s' /\ I hi s'.
Proof.
  intros Hle. remember (Z.to_nat (hi - lo)) as n eqn:En. revert lo s Hle En.
  induction n as [|n IH]; intros lo s Hle En H0 Hs.
  - exists s. rewrite cfor_empty by lia. replace hi with lo by lia. auto.
  - destruct (Hs lo s) as (s1 & E1 & I1); [lia|assumption|].
    rewrite cfor_step by lia. rewrite E1. cbn [bind].
    apply IH; [lia|lia|assumption|]. intros. apply Hs; [lia|assumption].
Qed.

(* a loop in which iteration [k] stops with an error and those before it either
   keep the invariant or stop with an error *)
Lemma cfor_err {S} (I : Z -> S -> Prop) lo hi k (body : Z -> S -> res S) s :
  lo <= k < hi -> I lo s ->
  (forall i s, lo <= i < k -> I i s -> body i s = Err \/ exists s', body i s = Ok s' /\ I (i + 1) s') ->
  (forall s, I k s -> body k s = Err) ->
  cfor lo hi body s = Err.
Proof.
  intros Hk. remember (Z.to_nat (k - lo)) as n eqn:En. revert lo s Hk En.
  induction n as [|n IH]; intros lo s Hk En H0 Hs He; rewrite cfor_step by lia.
  - assert (lo = k) by lia. subst. rewrite He by assumption. reflexivity.
  - destruct (Hs lo s) as [E|(s1 & E & H1)]; [lia|assumption|rewrite E; reflexivity|].
    rewrite E. cbn [bind]. apply IH; try assumption; try lia. intros. apply Hs; [lia|assumption].
Qed.

Lemma cfor_ext {S} lo hi (b1 b2 : Z -> S -> res S) s :
  (forall i s, lo <= i < hi -> b1 i s = b2 i s) -> cfor lo hi b1 s = cfor lo hi b2 s.
Proof.
  remember (Z.to_nat (hi - lo)) as n eqn:En. revert lo s En.
  induction n as [|n IH]; intros lo s En H.
  - rewrite !cfor_empty by lia. reflexivity.
  - rewrite !cfor_step by lia. rewrite H by lia. destruct (b2 lo s); cbn; try reflexivity.
    apply IH; [lia|]. intros. apply H. lia.
Qed.

Lemma cforall_true lo hi cond :
  (forall i, lo <= i < hi -> cond i = Ok true) -> cforall lo hi cond = Ok true.
Proof.
  unfold cforall. remember (Z.to_nat (hi - lo)) as n eqn:En. revert lo En.
  induction n as [|n IH]; intros lo En H; cbn [forall_loop]; [reflexivity|].
  rewrite H by lia. cbn [bind]. apply IH; [lia|]. intros. apply H. lia.
Qed.

(* the loop decides the conjunction when each test decides [P i] *)
Lemma cforall_dec lo hi cond (P : Z -> bool) :
  (forall i, lo <= i < hi -> cond i = Ok (P i)) ->
  exists b, cforall lo hi cond = Ok b /\ (b = true <-> forall i, lo <= i < hi -> P i = true).
Proof.
  unfold cforall. remember (Z.to_nat (hi - lo)) as n eqn:En. revert lo En.
  induction n as [|n IH]; intros lo En H; cbn [forall_loop].
  - exists true. split; [reflexivity|]. split; [intros; lia|reflexivity].
  - rewrite H by lia. cbn [bind]. destruct (P lo) eqn:EP.
    + destruct (IH (lo + 1)) as (b & E & Hb); [lia|intros; apply H; lia|].
      exists b. split; [exact E|]. rewrite Hb. split; intros Hx i Hi.
      * destruct (Z.eq_dec i lo); [congruence|]. apply Hx. lia.
      * apply Hx. lia.
    + exists false. split; [reflexivity|]. split; [discriminate|].
      intros Hx. rewrite Hx in EP by lia. discriminate.
Qed.

Lemma mapM_ok {A B} (f : A -> res B) (g : A -> B) l :
  Forall (fun x => f x = Ok (g x)) l -> mapM f l = Ok (map g l).
Proof. induction 1 as [|x l Hx _ IH]; [reflexivity|]. cbn. rewrite Hx, IH. reflexivity. Qed.

(** ** Lists with integer indices *)
Definition znth {A} (d : A) (l : list A) (i : Z) : A := nth (Z.to_nat i) l d.

Lemma zlength_nonneg {A} (l : list A) : 0 <= zlength l.
Proof. unfold zlength. lia. Qed.
Lemma zlength_app {A} (a b : list A) : zlength (a ++ b) = zlength a + zlength b.
Proof. unfold zlength. rewrite app_length. lia. Qed.
Lemma zlength_cons {A} (x : A) l : zlength (x :: l) = 1 + zlength l.
Proof. unfold zlength. cbn [length]. lia. Qed.
Lemma zlength_nil {A} : zlength (@nil A) = 0.
Proof. reflexivity. Qed.
Lemma zlength_one {A} (x : A) : zlength [x] = 1.
Proof. reflexivity. Qed.
Lemma zlength_map {A B} (f : A -> B) l : zlength (map f l) = zlength l.
Proof. unfold zlength. rewrite map_length. reflexivity. Qed.
Lemma zlength_repeat {A} (x : A) n : zlength (repeat x n) = Z.of_nat n.
Proof. unfold zlength. rewrite repeat_length. reflexivity. Qed.
Lemma zlength_firstn {A} n (l : list A) : 0 <= n -> zlength (firstn (Z.to_nat n) l) = Z.min n (zlength l).
Proof. intros. unfold zlength. rewrite firstn_length. lia. Qed.
Lemma zlength_skipn {A} n (l : list A) : 0 <= n -> zlength (skipn (Z.to_nat n) l) = Z.max 0 (zlength l - n).
Proof. intros. unfold zlength. rewrite skipn_length. lia. Qed.
Lemma zlength_0 {A} (l : list A) : zlength l = 0 -> l = [].
Proof. destruct l; [reflexivity|]. rewrite zlength_cons. pose proof (zlength_nonneg l). lia. Qed.

Lemma aget_ok {A} (d : A) l i : 0 <= i < zlength l -> aget l i = Ok (znth d l i).
Proof.
  unfold aget, znth, zlength. intros H. destruct (Z.ltb_spec i 0); [lia|].
  rewrite (nth_error_nth' l d) by lia. reflexivity.
Qed.

Lemma aget_ub {A} (l : list A) i : i < 0 \/ zlength l <= i -> aget l i = UB.
Proof.
  unfold aget, zlength. intros H. destruct (Z.ltb_spec i 0); [reflexivity|].
  destruct (nth_error l (Z.to_nat i)) eqn:E; [|reflexivity].
  assert (nth_error l (Z.to_nat i) <> None) by congruence.
  apply nth_error_Some in H1. lia.
Qed.

Lemma list_set_length {A} n (v : A) l : length (list_set n v l) = length l.
Proof. revert n. induction l as [|h t IH]; intros [|n]; cbn; auto. Qed.

Lemma list_set_nth {A} (d v : A) n l k : (n < length l)%nat ->
  nth k (list_set n v l) d = if (k =? n)%nat then v else nth k l d.
Proof.
  revert n k. induction l as [|h t IH]; intros n k H; cbn in H; [lia|].
  destruct n as [|n], k as [|k]; cbn; try reflexivity.
  rewrite IH by lia. reflexivity.
Qed.

Lemma list_set_Forall {A} (P : A -> Prop) n v l : Forall P l -> P v -> Forall P (list_set n v l).
Proof.
  intros H Hv. revert n. induction H as [|h t Hh Ht IH]; intros [|n]; cbn; auto.
Qed.

Lemma aset_ok {A} l i (v : A) : 0 <= i < zlength l -> aset l i v = Ok (list_set (Z.to_nat i) v l).
Proof.
  unfold aset, zlength. intros H.
  destruct (Z.leb_spec 0 i), (Z.ltb_spec i (Z.of_nat (length l))); cbn; try lia. reflexivity.
Qed.

Lemma znth_list_set {A} (d v : A) l i k : 0 <= i < zlength l -> 0 <= k ->
  znth d (list_set (Z.to_nat i) v l) k = if k =? i then v else znth d l k.
Proof.
  unfold znth, zlength. intros. rewrite list_set_nth by lia.
  destruct (Nat.eqb_spec (Z.to_nat k) (Z.to_nat i)), (Z.eqb_spec k i); try reflexivity; lia.
Qed.

Lemma zlength_list_set {A} n (v : A) l : zlength (list_set n v l) = zlength l.
Proof. unfold zlength. rewrite list_set_length. reflexivity. Qed.

Lemma list_ext {A} (d : A) l1 l2 : zlength l1 = zlength l2 ->
  (forall i, 0 <= i < zlength l1 -> znth d l1 i = znth d l2 i) -> l1 = l2.
Proof.
  unfold zlength, znth. intros Hl H. apply (nth_ext _ _ d d); [lia|].
  intros n Hn. specialize (H (Z.of_nat n)). rewrite Nat2Z.id in H. apply H. lia.
Qed.

Lemma znth_app {A} (d : A) a b i : 0 <= i ->
  znth d (a ++ b) i = if i <? zlength a then znth d a i else znth d b (i - zlength a).
Proof.
  unfold znth, zlength. intros H. destruct (Z.ltb_spec i (Z.of_nat (length a))).
  - rewrite app_nth1 by lia. reflexivity.
  - rewrite app_nth2 by lia. f_equal. lia.
Qed.

Lemma znth_firstn {A} (d : A) l n i : 0 <= i < n -> znth d (firstn (Z.to_nat n) l) i = znth d l i.
Proof.
  unfold znth. intros H.
  rewrite <- (firstn_skipn (Z.to_nat n) l) at 2.
  destruct (Nat.lt_ge_cases (Z.to_nat i) (length (firstn (Z.to_nat n) l))).
  - rewrite app_nth1 by assumption. reflexivity.
  - rewrite firstn_length in H0. rewrite nth_overflow by (rewrite firstn_length; lia).
    rewrite nth_overflow; [reflexivity|]. rewrite app_length, firstn_length, skipn_length. lia.
Qed.

Lemma znth_skipn {A} (d : A) l n i : 0 <= i -> 0 <= n ->
  znth d (skipn (Z.to_nat n) l) i = znth d l (n + i).
Proof.
  unfold znth. intros H Hn. replace (Z.to_nat (n + i)) with (Z.to_nat n + Z.to_nat i)%nat by lia.
  generalize (Z.to_nat n) as k, (Z.to_nat i) as j. clear. intros k. revert l.
  induction k as [|k IH]; intros l j; [reflexivity|]. destruct l; [destruct j; reflexivity|]. cbn. apply IH.
Qed.

Lemma znth_map {A B} (da : A) (db : B) (f : A -> B) l i : 0 <= i < zlength l ->
  znth db (map f l) i = f (znth da l i).
Proof.
  unfold znth, zlength. intros H. rewrite (nth_indep _ db (f da)) by (rewrite map_length; lia).
  apply map_nth.
Qed.

Lemma znth_repeat {A} (d x : A) n i : 0 <= i < Z.of_nat n -> znth d (repeat x n) i = x.
Proof.
  unfold znth. intros H. apply (repeat_spec n x). apply nth_In. rewrite repeat_length. lia.
Qed.

Lemma znth_repeat0 {A} (x : A) n i : znth x (repeat x n) i = x.
Proof.
  unfold znth. destruct (Nat.lt_ge_cases (Z.to_nat i) n).
  - apply (repeat_spec n x). apply nth_In. rewrite repeat_length. assumption.
  - apply nth_overflow. rewrite repeat_length. assumption.
Qed.

Lemma Forall_znth {A} (P : A -> Prop) d l : Forall P l <-> forall i, 0 <= i < zlength l -> P (znth d l i).
Proof.
  unfold znth, zlength. split.
  - intros H i Hi. rewrite Forall_forall in H. apply H. apply nth_In. lia.
  - intros H. apply Forall_forall. intros x Hx. destruct (In_nth _ _ d Hx) as (n & Hn & <-).
    specialize (H (Z.of_nat n)). rewrite Nat2Z.id in H. apply H. lia.
Qed.

Lemma Forall_at {A} (P : A -> Prop) d l i : Forall P l -> 0 <= i < zlength l -> P (znth d l i).
Proof. intros H. apply (proj1 (Forall_znth P d l)). assumption. Qed.

Lemma znth_out {A} (d : A) l i : zlength l <= i -> znth d l i = d.
Proof. unfold znth, zlength. intros. apply nth_overflow. lia. Qed.

Lemma znth_cons {A} (d x : A) l i : 0 <= i -> znth d (x :: l) i = if i =? 0 then x else znth d l (i - 1).
Proof.
  intros. unfold znth. destruct (Z.eqb_spec i 0); [subst; reflexivity|].
  replace (Z.to_nat i) with (S (Z.to_nat (i - 1))) by lia. reflexivity.
Qed.

(** ** 1D filling *)
Lemma fill1 {A} (d : A) lo hi (body : Z -> list A -> res (list A)) (g : Z -> A) (l : list A) dj :
  lo <= hi -> 0 <= lo + dj -> hi + dj <= zlength l ->
  (forall i l', lo <= i < hi -> zlength l' = zlength l ->
     znth d l' (i + dj) = znth d l (i + dj) -> body i l' = aset l' (i + dj) (g i)) ->
  exists l', cfor lo hi body l = Ok l' /\ zlength l' = zlength l /\
    forall k, 0 <= k -> znth d l' k = if (lo + dj <=? k) && (k <? hi + dj) then g (k - dj) else znth d l k.
Proof.
  intros Hle Hlo Hhi Hb.
  destruct (cfor_inv (fun n l' => zlength l' = zlength l /\
     forall k, 0 <= k -> znth d l' k = if (lo + dj <=? k) && (k <? n + dj) then g (k - dj) else znth d l k)
     lo hi body l) as (l' & E & Hl & Hn).
  - assumption.
  - split; [reflexivity|]. intros k Hk.
    destruct (Z.leb_spec (lo + dj) k), (Z.ltb_spec k (lo + dj)); cbn; try reflexivity; lia.
  - intros i s Hi (Hs & Hc). rewrite Hb; [|lia|assumption|].
    + exists (list_set (Z.to_nat (i + dj)) (g i) s). rewrite aset_ok by lia.
      split; [reflexivity|]. split; [rewrite zlength_list_set; assumption|].
      intros k Hk. rewrite znth_list_set by lia. destruct (Z.eqb_spec k (i + dj)).
      * subst. destruct (Z.leb_spec (lo + dj) (i + dj)), (Z.ltb_spec (i + dj) (i + 1 + dj)); cbn; try lia.
        f_equal. lia.
      * rewrite Hc by lia.
        destruct (Z.leb_spec (lo + dj) k), (Z.ltb_spec k (i + dj)), (Z.ltb_spec k (i + 1 + dj)); cbn;
          try reflexivity; lia.
    + rewrite Hc by lia. destruct (Z.leb_spec (lo + dj) (i + dj)), (Z.ltb_spec (i + dj) (i + dj)); cbn;
        try reflexivity; lia.
  - exists l'. auto.
Qed.

(** ** Matrices *)
(* [m] is an R x C matrix; no matrix at all when one of them is 0 *)
Definition mat (R C : Z) (m : list (list Z)) : Prop :=
  0 <= R /\ 0 <= C /\ (R = 0 \/ C = 0 -> m = []) /\
  (0 < R -> 0 < C -> zlength m = R /\ Forall (fun row => zlength row = C) m).

Definition cell (m : list (list Z)) (i j : Z) : Z := znth 0 (znth [] m i) j.

Lemma mat_row R C m i : mat R C m -> 0 <= i < R -> 0 < C -> zlength (znth [] m i) = C.
Proof.
  intros (_ & _ & _ & H) Hi HC. destruct H as [Hm Hf]; [lia|lia|].
  rewrite (Forall_znth _ []) in Hf. apply Hf. lia.
Qed.

Lemma mat_ext R C m1 m2 : mat R C m1 -> mat R C m2 ->
  (forall i j, 0 <= i < R -> 0 <= j < C -> cell m1 i j = cell m2 i j) -> m1 = m2.
Proof.
  intros M1 M2 H. destruct (Z.eq_dec R 0) as [E|E]; [|destruct (Z.eq_dec C 0) as [E'|E']].
  - destruct M1 as (_ & _ & -> & _), M2 as (_ & _ & -> & _); auto.
  - destruct M1 as (_ & _ & -> & _), M2 as (_ & _ & -> & _); auto.
  - pose proof M1 as (HR & HC & _ & H1). pose proof M2 as (_ & _ & _ & H2).
    destruct H1 as [L1 F1], H2 as [L2 F2]; try lia.
    apply (list_ext []); [lia|]. intros i Hi. apply (list_ext 0).
    + rewrite (mat_row R C m1), (mat_row R C m2) by (assumption || lia). reflexivity.
    + intros j Hj. rewrite (mat_row R C m1) in Hj by (assumption || lia). apply H; lia.
Qed.

Lemma mget_ok R C m i j : mat R C m -> 0 <= i < R -> 0 <= j < C -> mget m i j = Ok (cell m i j).
Proof.
  intros M Hi Hj. unfold mget. pose proof M as (_ & _ & _ & H). destruct H as [Hl _]; [lia|lia|].
  rewrite (aget_ok []) by lia. cbn [bind]. rewrite (aget_ok 0); [reflexivity|].
  rewrite (mat_row R C) by (assumption || lia). lia.
Qed.

Lemma mset_ok R C m i j v : mat R C m -> 0 <= i < R -> 0 <= j < C ->
  exists m', mset m i j v = Ok m' /\ mat R C m' /\
    forall a b, 0 <= a -> 0 <= b -> cell m' a b = if (a =? i) && (b =? j) then v else cell m a b.
Proof.
  intros M Hi Hj. unfold mset. pose proof M as (HR & HC & Hz & H). destruct H as [Hl Hf]; [lia|lia|].
  assert (Hrow : zlength (znth [] m i) = C) by (apply (mat_row R C); [assumption|lia|lia]).
  rewrite (aget_ok []) by lia. cbn [bind]. rewrite aset_ok by lia. cbn [bind]. rewrite aset_ok by lia.
  eexists. split; [reflexivity|]. split.
  - repeat split; try lia.
    + rewrite zlength_list_set. assumption.
    + apply list_set_Forall; [assumption|]. rewrite zlength_list_set. assumption.
  - intros a b Ha Hb. unfold cell. rewrite znth_list_set by lia.
    destruct (Z.eqb_spec a i); cbn [andb]; [|reflexivity].
    subst. rewrite znth_list_set by lia. reflexivity.
Qed.

(* filling part of one row; [g] may depend on the initial cell *)
Lemma fill_row R C lo hi i dj (body : Z -> list (list Z) -> res (list (list Z))) (g : Z -> Z) m :
  mat R C m -> lo <= hi -> (lo < hi -> 0 <= i < R /\ 0 <= lo + dj /\ hi + dj <= C) ->
  (forall j m', lo <= j < hi -> mat R C m' -> cell m' i (j + dj) = cell m i (j + dj) ->
     body j m' = mset m' i (j + dj) (g j)) ->
  exists m', cfor lo hi body m = Ok m' /\ mat R C m' /\
    forall a b, 0 <= a -> 0 <= b -> cell m' a b =
      if (a =? i) && ((lo + dj <=? b) && (b <? hi + dj)) then g (b - dj) else cell m a b.
Proof.
  intros M Hle Hr Hb.
  destruct (cfor_inv (fun n m' => mat R C m' /\
    forall a b, 0 <= a -> 0 <= b -> cell m' a b =
      if (a =? i) && ((lo + dj <=? b) && (b <? n + dj)) then g (b - dj) else cell m a b)
     lo hi body m) as (m' & E & Hm & Hc).
  - assumption.
  - split; [assumption|]. intros a b Ha Hb'.
    destruct (Z.eqb_spec a i), (Z.leb_spec (lo + dj) b), (Z.ltb_spec b (lo + dj)); cbn; try reflexivity; lia.
  - intros j s Hj (Hs & Hc). destruct Hr as (Hi & H0 & H1); [lia|].
    rewrite Hb; [|lia|assumption|].
    + destruct (mset_ok R C s i (j + dj) (g j) Hs) as (m1 & E1 & M1 & C1); [lia|lia|].
      exists m1. split; [exact E1|]. split; [exact M1|].
      intros a b Ha Hb'. rewrite C1, Hc by assumption.
      destruct (Z.eqb_spec a i), (Z.eqb_spec b (j + dj)), (Z.leb_spec (lo + dj) b), (Z.ltb_spec b (j + dj)),
        (Z.ltb_spec b (j + 1 + dj)); cbn; try reflexivity; try lia.
      f_equal. lia.
    + rewrite Hc by lia. destruct (Z.ltb_spec (j + dj) (j + dj)); [lia|].
      rewrite !andb_false_r. reflexivity.
  - exists m'. auto.
Qed.

(* a loop over rows, each iteration rewriting one row only *)
Lemma fill_rows R C lo hi di (body : Z -> list (list Z) -> res (list (list Z))) (g : Z -> Z -> Z) m :
  mat R C m -> lo <= hi ->
  (forall i m', lo <= i < hi -> mat R C m' ->
     (forall b, 0 <= b -> cell m' (i + di) b = cell m (i + di) b) ->
     exists m'', body i m' = Ok m'' /\ mat R C m'' /\
       forall a b, 0 <= a -> 0 <= b < C -> cell m'' a b = if a =? i + di then g i b else cell m' a b) ->
  exists m', cfor lo hi body m = Ok m' /\ mat R C m' /\
    forall a b, 0 <= a -> 0 <= b < C -> cell m' a b =
      if (lo + di <=? a) && (a <? hi + di) then g (a - di) b else cell m a b.
Proof.
  intros M Hle Hb.
  (* outside the columns cells are 0 in every matrix; keep them in the invariant *)
  assert (Hout : forall m', mat R C m' -> forall a b, 0 <= a -> C <= b -> cell m' a b = 0).
  { intros m' M' a b Ha Hb'. unfold cell. destruct (Z.eq_dec R 0) as [E|E];
      [|destruct (Z.eq_dec C 0) as [E'|E']].
    - destruct M' as (_ & _ & -> & _); auto. destruct (Z.to_nat a) eqn:Ea; unfold znth; rewrite Ea; apply nth_overflow; cbn; lia.
    - destruct M' as (_ & _ & -> & _); auto. destruct (Z.to_nat a) eqn:Ea; unfold znth; rewrite Ea; apply nth_overflow; cbn; lia.
    - destruct (Z.lt_ge_cases a R).
      + apply znth_out. rewrite (mat_row R C); try assumption; try lia. destruct M' as (? & ? & _); lia.
      + pose proof M' as (? & ? & _ & H1). destruct H1 as [L _]; try lia.
        rewrite (znth_out [] m' a) by lia. apply znth_out. rewrite zlength_nil. lia. }
  destruct (cfor_inv (fun n m' => mat R C m' /\
    forall a b, 0 <= a -> 0 <= b < C -> cell m' a b =
      if (lo + di <=? a) && (a <? n + di) then g (a - di) b else cell m a b)
     lo hi body m) as (m' & E & Hm & Hc).
  - assumption.
  - split; [assumption|]. intros a b Ha Hb'.
    destruct (Z.leb_spec (lo + di) a), (Z.ltb_spec a (lo + di)); cbn; try reflexivity; lia.
  - intros i s Hi (Hs & Hc). destruct (Hb i s Hi Hs) as (m1 & E1 & M1 & C1).
    + intros b Hb'. destruct (Z.lt_ge_cases b C).
      * destruct (Z.lt_ge_cases (i + di) 0).
        -- (* negative row: both read row 0 *)
           unfold cell. replace (znth [] s (i + di)) with (znth [] s 0) by (unfold znth; f_equal; lia).
           replace (znth [] m (i + di)) with (znth [] m 0) by (unfold znth; f_equal; lia).
           fold (cell s 0 b) (cell m 0 b). rewrite Hc by lia.
           destruct (Z.leb_spec (lo + di) 0), (Z.ltb_spec 0 (i + di)); cbn; try reflexivity; lia.
        -- rewrite Hc by lia. destruct (Z.ltb_spec (i + di) (i + di)); [lia|].
           rewrite andb_false_r. reflexivity.
      * destruct (Z.lt_ge_cases (i + di) 0).
        -- unfold cell. replace (znth [] s (i + di)) with (znth [] s 0) by (unfold znth; f_equal; lia).
           replace (znth [] m (i + di)) with (znth [] m 0) by (unfold znth; f_equal; lia).
           fold (cell s 0 b) (cell m 0 b). rewrite !Hout by (assumption || lia). reflexivity.
        -- rewrite !Hout by (assumption || lia). reflexivity.
    + exists m1. split; [exact E1|]. split; [exact M1|].
      intros a b Ha Hb'. rewrite C1, Hc by assumption.
      destruct (Z.eqb_spec a (i + di)), (Z.leb_spec (lo + di) a), (Z.ltb_spec a (i + di)),
        (Z.ltb_spec a (i + 1 + di)); cbn; try reflexivity; try lia.
      f_equal. lia.
  - exists m'. auto.
Qed.

(** Run the first loop of the goal with one of the lemmas above; the last goal
    is the continuation. *)
Ltac run_fill1 g dj :=
  match goal with
  | |- context[@cfor (list Z) ?lo ?hi ?body ?l] =>
      let l' := fresh "l" in let E := fresh "E" in let L := fresh "Hl" in let C := fresh "Hc" in
      destruct (fill1 0 lo hi body g l dj) as (l' & E & L & C);
      [ | | | | rewrite E; cbn [bind]; clear E ]
  end.
Ltac run_fill_rows R C di g :=
  match goal with
  | |- context[@cfor (list (list Z)) ?lo ?hi ?body ?m] =>
      let m' := fresh "m" in let E := fresh "E" in let M := fresh "Mm" in let H := fresh "Hm" in
      destruct (fill_rows R C lo hi di body g m) as (m' & E & M & H);
      [ | | | rewrite E; cbn [bind]; clear E ]
  end.
Ltac run_fill_row R C i dj g :=
  match goal with
  | |- context[@cfor (list (list Z)) ?lo ?hi ?body ?m] =>
      let m' := fresh "m" in let E := fresh "E" in let M := fresh "Mm" in let H := fresh "Hm" in
      destruct (fill_row R C lo hi i dj body g m) as (m' & E & M & H);
      [ | | | | rewrite E; cbn [bind]; clear E ]
  end.

(* well-formedness of literal vectors and relations *)
Ltac wf_lit :=
  repeat match goal with
  | |- _ /\ _ => split
  | |- Forall _ (_ :: _) => apply Forall_cons
  | |- Forall _ [] => apply Forall_nil
  | |- _ -> _ => intros ?
  | |- supported _ _ => unfold supported; cbn; auto
  | |- representable _ _ _ => unfold representable; cbn; lia
  | |- _ => reflexivity
  | |- _ => cbn in *; lia
  end.
