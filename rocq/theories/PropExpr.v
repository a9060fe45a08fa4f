(** * C43: the comments of a printed relation say what its constraints say *)
From Coq Require Import ZifyBool ZifyNat.
From Verif Require Import Base IntModel VectorModel RelationModel UtilModel StringsModel RelTextModel
  Spec RelSpec TextSpec ExprSpec LoopLemmas IntProofs TextInt VectorProofs RelationProofs UtilProofs
  RelationProofs4 RelTextProofs.

(** ** The calculator *)
Definition not_sep (c : ascii) : Prop := c <> "+"%char /\ c <> "-"%char /\ c <> " "%char.
Definition term_ok (env : str -> option Z) (t : str) (v : Z) : Prop :=
  t <> [] /\ Forall not_sep t /\ term_value env t = Some v.

Inductive ex (env : str -> option Z) : str -> Z -> Prop :=
| ex_pos t v : term_ok env t v -> ex env t v
| ex_neg t v : term_ok env t v -> ex env (lit "-" ++ t) (- v)
| ex_add l x t v : ex env l x -> term_ok env t v -> ex env (l ++ lit "+" ++ t) (x + v)
| ex_sub l x t v : ex env l x -> term_ok env t v -> ex env (l ++ lit "-" ++ t) (x - v).

Definition continue (env : str -> option Z) (v : Z) (r : str) : option Z :=
  match r with
  | [] => Some v
  | c :: r' => if Ascii.eqb c "+" then sum_value env v 1 [] r'
               else if Ascii.eqb c "-" then sum_value env v (-1) [] r' else None
  end.
Definition sign_head (r : str) : Prop :=
  match r with [] => True | c :: _ => c = "+"%char \/ c = "-"%char end.

Lemma sum_term env acc s t : forall term r, Forall not_sep t ->
  sum_value env acc s term (t ++ r) = sum_value env acc s (term ++ t) r.
Proof.
  induction t as [|c t IH]; intros term r H; [now rewrite app_nil_r|].
  inversion H as [|? ? (Hp & Hm & _) Ht]; subst. cbn [app sum_value].
  apply Ascii.eqb_neq in Hp, Hm. rewrite Hp, Hm. rewrite IH by assumption. now rewrite <- app_assoc.
Qed.

Lemma sum_end env acc s t v r : t <> [] -> term_value env t = Some v -> sign_head r ->
  sum_value env acc s t r = continue env (acc + s * v) r.
Proof.
  intros Ht Hv Hr. destruct r as [|c r]; cbn [sum_value continue]; rewrite Hv; destruct t; try contradiction; [reflexivity|].
  destruct Hr as [-> | ->]; reflexivity.
Qed.

Lemma ex_continue env l v : ex env l v -> forall r, sign_head r -> expression_value env (l ++ r) = continue env v r.
Proof.
  induction 1 as [t v (Ht & Hs & Hv)|t v (Ht & Hs & Hv)|l x t v Hl IH (Ht & Hs & Hv)|l x t v Hl IH (Ht & Hs & Hv)]; intros r Hr.
  - assert (E : expression_value env (t ++ r) = sum_value env 0 1 [] (t ++ r)).
    { destruct t as [|c t]; [contradiction|]. inversion Hs as [|? ? (_ & Hm & _) _]; subst. cbn [app expression_value].
      apply Ascii.eqb_neq in Hm. now rewrite Hm. }
    rewrite E, sum_term by assumption. cbn [app]. rewrite (sum_end _ _ _ _ v) by assumption; f_equal; lia.
  - change (expression_value env ((lit "-" ++ t) ++ r)) with (sum_value env 0 (-1) [] (t ++ r)).
    rewrite sum_term by assumption. cbn [app]. rewrite (sum_end _ _ _ _ v) by assumption; f_equal; lia.
  - rewrite <- app_assoc. rewrite IH by (now left).
    change (continue env x ((lit "+" ++ t) ++ r)) with (sum_value env x 1 [] (t ++ r)).
    rewrite sum_term by assumption. cbn [app]. rewrite (sum_end _ _ _ _ v) by assumption; f_equal; lia.
  - rewrite <- app_assoc. rewrite IH by (now right).
    change (continue env x ((lit "-" ++ t) ++ r)) with (sum_value env x (-1) [] (t ++ r)).
    rewrite sum_term by assumption. cbn [app]. rewrite (sum_end _ _ _ _ v) by assumption; f_equal; lia.
Qed.
Lemma ex_value env l v : ex env l v -> expression_value env l = Some v.
Proof. intros H. rewrite <- (app_nil_r l). apply (ex_continue env l v H []). exact I. Qed.

Lemma ex_no_blank env l v : ex env l v -> Forall (fun c => c <> " "%char) l.
Proof.
  assert (Hn : forall t, Forall not_sep t -> Forall (fun c => c <> " "%char) t)
    by (intros t H; eapply Forall_impl; [|exact H]; intros c (_ & _ & Hc); exact Hc).
  induction 1 as [t v (Ht & Hs & Hv)|t v (Ht & Hs & Hv)|l x t v Hl IH (Ht & Hs & Hv)|l x t v Hl IH (Ht & Hs & Hv)];
    repeat (apply Forall_app; split); auto; repeat constructor; discriminate.
Qed.

Lemma at_blank_app l r : Forall (fun c => c <> " "%char) l -> at_blank (l ++ " "%char :: r) = Some (l, r).
Proof.
  induction 1 as [|c l Hc H IH]; [reflexivity|]. cbn [app at_blank]. apply Ascii.eqb_neq in Hc. now rewrite Hc, IH.
Qed.

(** ** Terms *)
Lemma decimal_from_digits t : forall a, digits t -> decimal_from a t = Some (dval t a).
Proof.
  induction t as [|c t IH]; intros a H; [reflexivity|]. inversion H; subst. cbn [decimal_from].
  replace ((0 <=? Z.of_nat (nat_of_ascii c) - 48) && (Z.of_nat (nat_of_ascii c) - 48 <=? 9)) with true
    by (unfold is_digit in H2; lia).
  rewrite IH by assumption. reflexivity.
Qed.
Lemma decimal_print k : 0 <= k -> decimal (print_nat_Z k) = Some k.
Proof.
  intros Hk. destruct (print_nat_ok k Hk) as (Hd & Hv & Hn). unfold decimal.
  destruct (print_nat_Z k) eqn:E; [contradiction|]. rewrite <- E. rewrite decimal_from_digits by now rewrite E.
  rewrite E. now rewrite Hv.
Qed.
Lemma digit_plain c : is_digit c = true -> not_sep c /\ c <> "*"%char.
Proof. intros H. repeat split; intros ->; discriminate H. Qed.
Lemma at_star_none t : Forall (fun c => c <> "*"%char) t -> at_star t = None.
Proof. induction 1 as [|c t Hc H IH]; [reflexivity|]. cbn. apply Ascii.eqb_neq in Hc. now rewrite Hc, IH. Qed.
Lemma at_star_app t n : Forall (fun c => c <> "*"%char) t -> at_star (t ++ "*"%char :: n) = Some (t, n).
Proof. induction 1 as [|c t Hc H IH]; [reflexivity|]. cbn [app at_star]. apply Ascii.eqb_neq in Hc. now rewrite Hc, IH. Qed.

Lemma digits_plain t : digits t -> Forall not_sep t /\ Forall (fun c => c <> "*"%char) t.
Proof.
  intros H. split; (eapply Forall_impl; [|exact H]); intros c Hc; now apply digit_plain in Hc as [? ?].
Qed.
Lemma term_const env k : 0 <= k -> term_ok env (print_nat_Z k) k.
Proof.
  intros Hk. destruct (print_nat_ok k Hk) as (Hd & _ & Hn). destruct (digits_plain _ Hd) as [H1 H2].
  split; [assumption|]. split; [assumption|]. unfold term_value. rewrite at_star_none by assumption.
  now rewrite decimal_print.
Qed.
Lemma name_plain n : name_ok n -> Forall not_sep n /\ Forall (fun c => c <> "*"%char) n.
Proof. intros (_ & _ & H). split; (eapply Forall_impl; [|exact H]); unfold not_sep; intros c Hc; tauto. Qed.
Lemma term_name env n v : name_ok n -> env n = Some v -> term_ok env n v.
Proof.
  intros Hn Hv. destruct (name_plain n Hn) as [H1 H2]. destruct Hn as (Hne & Hd & _).
  split; [assumption|]. split; [assumption|]. unfold term_value. rewrite at_star_none by assumption.
  replace (decimal n) with (@None Z); [assumption|]. destruct n as [|c n]; [contradiction|].
  cbn [decimal decimal_from digit_head] in *. now rewrite Hd.
Qed.
Lemma term_product env k n v : 0 <= k -> name_ok n -> env n = Some v -> term_ok env (print_nat_Z k ++ lit "*" ++ n) (k * v).
Proof.
  intros Hk Hn Hv. destruct (print_nat_ok k Hk) as (Hd & _ & Hne). destruct (digits_plain _ Hd) as [H1 H2].
  destruct (name_plain n Hn) as [H3 _].
  split; [destruct (print_nat_Z k); [contradiction|discriminate]|]. split.
  - apply Forall_app. split; [assumption|]. constructor; [repeat split; discriminate|assumption].
  - unfold term_value. change (lit "*" ++ n) with ("*"%char :: n). rewrite at_star_app by assumption.
    rewrite decimal_print by assumption. now rewrite Hv.
Qed.

Section E.
Context {cfg : config}.

Lemma print_pos k : 0 <= k -> print_Z k = print_nat_Z k.
Proof. intros H. unfold print_Z. destruct (Z.ltb_spec k 0); [lia|reflexivity]. Qed.
Lemma print_neg k : k < 0 -> print_Z k = lit "-" ++ print_nat_Z (- k).
Proof. intros H. unfold print_Z. destruct (Z.ltb_spec k 0); [reflexivity|lia]. Qed.

(** The text of one element: nothing, or one signed term. *)
Definition signed (env : str -> option Z) (first : bool) (t : str) (w : Z) : Prop :=
  exists term, (t = (if first then [] else lit "+") ++ term /\ term_ok env term w) \/
               (t = lit "-" ++ term /\ term_ok env term (- w)).

Lemma element_value env p v first cst name x t f' : supported cfg p ->
  (cst = false -> name_ok name /\ env name = Some x) ->
  osl_relation_expression_element v p first cst name = Ok (t, f') ->
  let w := if cst then v else v * x in
  (t = [] /\ f' = first /\ v = 0 /\ (cst = true -> first = false)) \/
  (signed env first t w /\ (cst = false -> f' = false /\ v <> 0)).
Proof.
  intros Hp Hn H w. unfold osl_relation_expression_element in H.
  destruct (sign_exact p v Hp) as (E1 & E2 & E3 & E4 & E5). rewrite E1, E2, E3, E4, E5 in H. cbn [bind] in H.
  inv_bind H. apply sprint_txt_eq in E. subst v0.
  destruct cst; cbn [negb] in H.
  - rewrite andb_false_r in H. cbn [bind] in H. inv_bind H. apply buf_store_eq in E. subst v0.
    apply Ok_inj in H. injection H as <- <-.
    destruct (Z.ltb_spec 0 v).
    + right. split; [|discriminate]. exists (print_nat_Z v). left. rewrite print_pos by lia.
      split; [destruct first; reflexivity|]. apply term_const. lia.
    + destruct (Z.ltb_spec v 0).
      * rewrite orb_true_r. right. split; [|discriminate]. exists (print_nat_Z (- v)). right.
        split; [apply print_neg; lia|]. apply term_const. lia.
      * assert (v = 0) by lia. subst v. cbn [Z.eqb]. destruct first; cbn [andb orb].
        -- right. split; [|discriminate]. exists (print_nat_Z 0). left. split; [reflexivity|]. apply term_const. lia.
        -- left. auto.
  - destruct (Hn eq_refl) as [Hok Hx]. rewrite andb_true_r in H. destruct (Z.eqb_spec v 0) as [->|Hv0]; cbn [negb] in H.
    + cbn [bind] in H. inv_bind H. apply buf_store_eq in E. subst v. apply Ok_inj in H. injection H as <- <-. left.
      repeat split; auto; discriminate.
    + right. destruct (first || (v <? 0)) eqn:Ef; cbn [bind] in H; inv_bind H; apply buf_store_eq in E; subst v0;
        apply Ok_inj in H; injection H as <- <-.
      * split; [|intros _; auto]. destruct (Z.eqb_spec v 1) as [->|].
        { assert (first = true) by (destruct first; [reflexivity|cbn [orb] in Ef; lia]); subst first. exists name. left. split; [reflexivity|].
          unfold w. rewrite Z.mul_1_l. now apply term_name. }
        destruct (Z.eqb_spec v (-1)) as [->|].
        { exists name. right. split; [reflexivity|]. unfold w. replace (- (-1 * x)) with x by lia. now apply term_name. }
        destruct (Z.ltb_spec v 0).
        { exists (print_nat_Z (- v) ++ lit "*" ++ name). right. rewrite print_neg by lia. split; [now rewrite <- app_assoc|].
          unfold w. replace (- (v * x)) with (- v * x) by lia. apply term_product; auto; lia. }
        { assert (first = true) by (destruct first; [reflexivity|cbn [orb] in Ef; lia]); subst first. exists (print_nat_Z v ++ lit "*" ++ name). left.
          rewrite print_pos by lia. split; [reflexivity|]. apply term_product; auto. }
      * apply orb_false_iff in Ef as [-> Hneg]. split; [|intros _; auto]. destruct (Z.eqb_spec v 1) as [->|].
        { exists name. left. split; [reflexivity|]. unfold w. rewrite Z.mul_1_l. now apply term_name. }
        { exists (print_nat_Z v ++ lit "*" ++ name). left. rewrite print_pos by lia. split; [reflexivity|].
          apply term_product; auto; lia. }
Qed.

(** ** Sums of columns *)
Definition products (coeffs vals : list Z) : list Z := map (fun ab => fst ab * snd ab) (combine coeffs vals).
Definition sum_between (l : list Z) (a b : Z) : Z :=
  fold_right Z.add 0 (firstn (Z.to_nat (b - a)) (skipn (Z.to_nat a) l)).
Lemma fold_add_app a b : fold_right Z.add 0 (a ++ b) = fold_right Z.add 0 a + fold_right Z.add 0 b.
Proof. induction a as [|x a IH]; cbn [app fold_right]; lia. Qed.
Lemma sum_step l a b : 0 <= a <= b -> b < zlength l -> sum_between l a (b + 1) = sum_between l a b + znth 0 l b.
Proof.
  intros Ha Hb. unfold sum_between. replace (Z.to_nat (b + 1 - a)) with (S (Z.to_nat (b - a))) by lia.
  assert (Hx : forall n (m : list Z), (n < length m)%nat -> firstn (S n) m = firstn n m ++ [nth n m 0]).
  { clear. induction n as [|n IH]; intros [|x m] H; cbn [length] in H; try lia; [reflexivity|].
    change (firstn (S (S n)) (x :: m)) with (x :: firstn (S n) m). rewrite IH by lia. reflexivity. }
  rewrite Hx by (rewrite skipn_length; unfold zlength in Hb; lia). rewrite fold_add_app. cbn [fold_right].
  rewrite Z.add_0_r. f_equal. unfold znth.
  rewrite <- (firstn_skipn (Z.to_nat a) l) at 2. rewrite app_nth2; rewrite firstn_length; unfold zlength in Hb; [|lia].
  f_equal. lia.
Qed.
Lemma sum_empty l a : sum_between l a a = 0.
Proof. unfold sum_between. replace (Z.to_nat (a - a)) with O by lia. reflexivity. Qed.
Lemma skipn_skipn_add {A} a : forall b (l : list A), skipn a (skipn b l) = skipn (a + b) l.
Proof.
  induction b as [|b IH]; intros l; [now rewrite Nat.add_0_r|]. rewrite Nat.add_succ_r. destruct l; cbn [skipn]; [now destruct a|apply IH].
Qed.
Lemma sum_split l a b c : 0 <= a <= b -> b <= c -> sum_between l a c = sum_between l a b + sum_between l b c.
Proof.
  intros Ha Hb. unfold sum_between. rewrite <- fold_add_app. f_equal.
  replace (Z.to_nat (c - a)) with (Z.to_nat (b - a) + Z.to_nat (c - b))%nat by lia.
  replace (Z.to_nat b) with (Z.to_nat (b - a) + Z.to_nat a)%nat by lia.
  rewrite <- skipn_skipn_add. generalize (skipn (Z.to_nat a) l) as m. generalize (Z.to_nat (b - a)) as n.
  clear. induction n as [|n IH]; intros m; [reflexivity|]. destruct m as [|x m]; cbn [Nat.add firstn skipn app].
  - now rewrite !firstn_nil.
  - now rewrite IH.
Qed.
Lemma affine_products coeffs : forall x, length coeffs = S (length x) ->
  affine coeffs x = fold_right Z.add 0 (products coeffs (x ++ [1])).
Proof.
  induction coeffs as [|c coeffs IH]; intros x H; [discriminate|]. destruct x as [|v x].
  - destruct coeffs; [|discriminate]. cbn. lia.
  - cbn [app products combine map fold_right fst snd]. destruct coeffs as [|c' coeffs]; [discriminate|].
    change (affine (c :: c' :: coeffs) (v :: x)) with (c * v + affine (c' :: coeffs) x).
    rewrite IH by (cbn [length] in *; lia). reflexivity.
Qed.

(** The values of all columns, that of the tag being irrelevant. *)
Definition values (x : list Z) : list Z := 0 :: x ++ [1].
Definition prods (row x : list Z) : list Z := products row (values x).
Lemma prods_nth row x i : zlength row = zlength x + 2 -> 0 <= i < zlength row ->
  znth 0 (prods row x) i = znth 0 row i * znth 0 (values x) i.
Proof.
  intros Hl Hi. unfold prods, products.
  assert (Hlen : length row = length (values x)) by (unfold values, zlength in *; cbn [length]; rewrite app_length; cbn; lia).
  rewrite (znth_map (0, 0)) by (unfold zlength in *; rewrite combine_length; lia). unfold znth.
  rewrite combine_nth by assumption. reflexivity.
Qed.
Lemma prods_length row x : zlength row = zlength x + 2 -> zlength (prods row x) = zlength row.
Proof.
  intros Hl. unfold prods, products, values, zlength in *. rewrite map_length, combine_length. cbn [length].
  rewrite app_length. cbn. lia.
Qed.
Lemma affine_sum tag coeffs x : zlength (tag :: coeffs) = zlength x + 2 ->
  affine coeffs x = sum_between (prods (tag :: coeffs) x) 1 (zlength (tag :: coeffs)).
Proof.
  intros H. rewrite affine_products by (unfold zlength in H; cbn [length] in H; lia). unfold sum_between.
  change (skipn (Z.to_nat 1) (prods (tag :: coeffs) x)) with (products coeffs (x ++ [1])).
  rewrite firstn_all2; [reflexivity|]. unfold products. rewrite map_length, combine_length.
  unfold zlength in *. cbn [length] in *. lia.
Qed.

(** ** The loop over the columns *)
Lemma signed_first env t w : signed env true t w -> ex env t w.
Proof.
  intros (term & [[-> H]|[-> H]]); [now apply ex_pos|]. replace w with (- - w) by lia. now apply ex_neg.
Qed.
Lemma signed_next env l v t w : ex env l v -> signed env false t w -> ex env (l ++ t) (v + w).
Proof.
  intros Hl (term & [[-> H]|[-> H]]); [now apply ex_add|]. replace (v + w) with (v - - w) by lia. now apply ex_sub.
Qed.

Lemma oppose_eq p v v' : supported cfg p -> osl_int_oppose p v = Ok v' -> v' = - v.
Proof.
  intros Hp. unfold osl_int_oppose, pswitch, c_neg, csigned.
  destruct (supported_cases _ Hp) as [[-> _]|[-> [-> _]]]; cbn [negb]; try (destruct (fits _ _)); congruence.
Qed.

Lemma loop_value env (r : relation) (row : Z) (oppose : bool) (strings : list str) x start stop (line : str) (f : bool) :
  wf_rel cfg r -> 0 <= row < nrows r -> zlength x = ncols r - 2 -> names_values env strings x ->
  1 <= start <= stop + 1 -> start < ncols r -> stop <= ncols r - 1 ->
  cfor start (stop + 1) (fun i s =>
    let '(line, first) := s in
    v <- mget (rm r) row i ;;
    v <- (if oppose then osl_int_oppose (rprec r) v else Ok v) ;;
    name <- aget strings i ;;
    '(t, first) <- osl_relation_expression_element v (rprec r) first (i =? ncols r - 1) name ;;
    (if oppose then osl_int_oppose (rprec r) v else Ok v) ;;;
    line <- buf_store (line ++ t) ;;
    Ok (line, first)) ([], true) = Ok (line, f) ->
  let s := if oppose then -1 else 1 in
  let total := s * sum_between (prods (znth [] (rm r) row) x) start (stop + 1) in
  ex env line total \/
  (line = [] /\ total = 0 /\ stop < ncols r - 1 /\ forall j, start <= j <= stop -> cell (rm r) row j = 0).
Proof.
  intros W Hrow Hx [Hns Hnv] Hstart Hstart2 Hstop H s total.
  pose proof W as (Hp & HR & HC & Hz & Hm & _).
  assert (M : mat (nrows r) (ncols r) (rm r)) by (exact (conj HR (conj HC (conj Hz Hm)))).
  assert (Hlen : zlength (znth [] (rm r) row) = ncols r) by (apply (mat_row (nrows r)); auto; lia).
  set (P := prods (znth [] (rm r) row) x) in *.
  set (I := fun (i : Z) (st : str * bool) =>
    (ex env (fst st) (s * sum_between P start i) /\ (i < ncols r -> snd st = false)) \/
    (i < ncols r /\ fst st = [] /\ snd st = true /\ sum_between P start i = 0 /\
     forall j, start <= j < i -> cell (rm r) row j = 0)).
  assert (HI : I (stop + 1) (line, f)).
  { revert H. apply (cfor_post I); [lia| |].
    - right. split; [lia|]. split; [reflexivity|]. split; [reflexivity|]. split; [apply sum_empty|]. intros; lia.
    - intros i [l first] [l1 first1] Hi Inv H. cbn beta iota in H.
      rewrite (mget_ok (nrows r) (ncols r)) in H by (auto; lia). cbn [bind] in H. inv_bind H.
      assert (Hv : v = s * cell (rm r) row i).
      { destruct oppose; [apply oppose_eq in E; [|assumption]; subst v; lia|apply Ok_inj in E; subst v; lia]. }
      inv_bind H. rename v0 into name. inv_bind H. destruct v0 as [t first2]. inv_bind H. inv_bind H.
      apply buf_store_eq in E3. subst v1. apply Ok_inj in H. injection H as <- <-. clear E E2 v0.
      assert (Hname : nth_error strings (Z.to_nat i) = Some name).
      { unfold aget in E0. destruct (i <? 0); [discriminate|]. destruct (nth_error _ _); congruence. }
      assert (Hval : (i =? ncols r - 1) = false -> name_ok name /\ env name = Some (znth 0 (values x) i)).
      { intros Hi'. destruct (nth_error x (Z.to_nat (i - 1))) as [xv|] eqn:Ex.
        - replace (Z.to_nat i) with (S (Z.to_nat (i - 1))) in Hname by lia.
          replace (znth 0 (values x) i) with xv; [exact (Hnv _ _ _ Hname Ex)|].
          unfold values, znth. replace (Z.to_nat i) with (S (Z.to_nat (i - 1))) by lia. cbn [nth].
          rewrite app_nth1 by (apply nth_error_Some; congruence). symmetry. now apply nth_error_nth.
        - apply nth_error_None in Ex. unfold zlength in Hx. lia. }
      pose proof (element_value env _ _ _ _ _ _ _ _ Hp Hval E1) as Hel. cbv zeta in Hel.
      assert (Hsum : s * sum_between P start (i + 1) =
                     s * sum_between P start i + (if i =? ncols r - 1 then v else v * znth 0 (values x) i)).
      { rewrite sum_step by (try (unfold P; rewrite prods_length); lia). unfold P at 2. rewrite prods_nth by lia.
        fold (cell (rm r) row i). destruct (Z.eqb_spec i (ncols r - 1)) as [Ei|].
        - replace (znth 0 (values x) i) with 1; [subst v; ring|]. unfold values, znth.
          replace (Z.to_nat i) with (S (length x)) by (unfold zlength in Hx; lia). cbn [nth].
          rewrite app_nth2, Nat.sub_diag by lia. reflexivity.
        - subst v. ring. }
      unfold I in Inv |- *. cbn [fst snd] in *. rewrite Hsum.
      assert (Hs0 : v = 0 -> cell (rm r) row i = 0) by (unfold s in Hv; destruct oppose; lia).
      destruct Inv as [[He Hf]|(Hi' & -> & -> & HS & H0)].
      + rewrite Hf in * by lia. left. destruct Hel as [(-> & -> & -> & _)|[Hsig Hf']].
        * rewrite app_nil_r. split; [|auto]. destruct (i =? _); rewrite Z.add_0_r; assumption.
        * split; [now apply signed_next|]. intros Hlt. apply Hf'. lia.
      + rewrite HS, Z.mul_0_r, Z.add_0_l. destruct Hel as [(-> & -> & -> & Hc)|[Hsig Hf']].
        * destruct (Z.eqb_spec i (ncols r - 1)); [specialize (Hc eq_refl); discriminate|]. right.
          split; [lia|]. split; [reflexivity|]. split; [reflexivity|]. split.
          { rewrite sum_step by (try (unfold P; rewrite prods_length); lia). unfold P at 2. rewrite prods_nth by lia.
            fold (cell (rm r) row i). rewrite HS, Hs0 by reflexivity. lia. }
          intros j Hj. destruct (Z.eq_dec j i) as [->|]; [auto|]. apply H0. lia.
        * left. cbn [app]. split; [now apply signed_first|]. intros Hlt. apply Hf'. lia. }
  unfold I in HI. cbn [fst snd] in HI. destruct HI as [[He _]|(Hi' & -> & _ & HS & H0)].
  - left. exact He.
  - right. split; [reflexivity|]. split; [unfold total; rewrite HS; lia|]. split; [lia|]. intros j Hj. apply H0. lia.
Qed.

(** ** Simple outputs *)
Fixpoint outputs_sign (l : list Z) (st : bool * Z) : Z :=
  match l with
  | [] => snd st
  | c :: l' => if c =? 0 then outputs_sign l' st
               else if negb (fst st) then 0
               else if c =? 1 then outputs_sign l' (false, 1)
               else if c =? -1 then outputs_sign l' (false, -1) else 0
  end.
Lemma outputs_sign_false s l : outputs_sign l (false, s) <> 0 -> outputs_sign l (false, s) = s /\ l = repeat 0 (length l).
Proof.
  induction l as [|c l IH]; cbn [outputs_sign fst snd negb]; [auto|]. destruct (Z.eqb_spec c 0) as [->|]; [|congruence].
  intros H. destruct (IH H) as [E1 E2]. split; [assumption|]. cbn [length repeat]. now rewrite <- E2.
Qed.
Lemma outputs_sign_true l : outputs_sign l (true, 0) <> 0 ->
  (outputs_sign l (true, 0) = 1 \/ outputs_sign l (true, 0) = -1) /\
  exists a b, l = repeat 0 a ++ outputs_sign l (true, 0) :: repeat 0 b.
Proof.
  induction l as [|c l IH]; cbn [outputs_sign fst snd negb]; [congruence|]. destruct (Z.eqb_spec c 0) as [->|].
  - intros H. destruct (IH H) as (Hs & a & b & E). split; [assumption|]. exists (S a), b. cbn [repeat app]. now rewrite <- E.
  - destruct (Z.eqb_spec c 1) as [->|]; [|destruct (Z.eqb_spec c (-1)) as [->|]; [|intros X; congruence]];
      intros H; apply outputs_sign_false in H as [E1 E2]; rewrite E1; (split; [auto|]); exists 0%nat, (length l);
      cbn [repeat app]; now rewrite <- E2.
Qed.
Lemma outputs_sign_zeros s n : outputs_sign (repeat 0 n) (false, s) = s.
Proof. induction n; auto. Qed.
Lemma outputs_sign_complete a b s : s = 1 \/ s = -1 -> outputs_sign (repeat 0 a ++ s :: repeat 0 b) (true, 0) = s.
Proof.
  intros Hs. induction a as [|a IH]; cbn [repeat app outputs_sign Z.eqb fst negb].
  - destruct Hs as [-> | ->]; apply outputs_sign_zeros.
  - assumption.
Qed.

Lemma outputs_loop r row outs : supported cfg (rprec r) -> forall i st,
  (forall k, (k < length outs)%nat -> mget (rm r) row (i + Z.of_nat k) = Ok (nth k outs 0)) ->
  for_ret (length outs) i (fun i s =>
        let '(first, sign) := s in
        x <- mget (rm r) row i ;;
        z <- osl_int_zero (rprec r) x ;;
        if z then Ok (inl s)
        else if negb first then Ok (inr 0)
        else
          one <- osl_int_one (rprec r) x ;;
          if one then Ok (inl (false, 1))
          else mone <- osl_int_mone (rprec r) x ;;
               if mone then Ok (inl (false, -1)) else Ok (inr 0))
        st (fun s => Ok (snd s)) = Ok (outputs_sign outs st).
Proof.
  intros Hp. induction outs as [|c outs IH]; intros i [first sign] H; [reflexivity|].
  cbn [length for_ret outputs_sign fst]. pose proof (H 0%nat ltac:(cbn [length]; lia)) as H0. cbn [nth] in H0.
  replace (i + Z.of_nat 0) with i in H0 by lia. rewrite H0. cbn [bind].
  destruct (sign_exact (rprec r) c Hp) as (_ & _ & E3 & E4 & E5). rewrite E3, E4, E5. cbn [bind].
  assert (IH' : forall st, for_ret _ _ _ st _ = _) by (intros st; apply (IH (i + 1)); intros k Hk;
    replace (i + 1 + Z.of_nat k) with (i + Z.of_nat (S k)) by lia; rewrite H by (cbn [length]; lia); reflexivity).
  destruct (c =? 0); [apply IH'|]. destruct first; cbn [negb]; [|reflexivity].
  destruct (c =? 1); [apply IH'|]. destruct (c =? -1); [apply IH'|reflexivity].
Qed.

Lemma simple_output_eq r row : wf_rel cfg r -> 0 <= row < nrows r -> 0 <= nout r -> nout r + 1 <= ncols r ->
  osl_relation_is_simple_output r row =
  Ok (if cell (rm r) row 0 =? 0 then outputs_sign (slice 1 (nout r) (znth [] (rm r) row)) (true, 0) else 0).
Proof.
  intros W Hrow Ho Hc. pose proof W as (Hp & _). pose proof (wf_mat r W) as M.
  pose proof (mat_row _ _ _ row M Hrow ltac:(lia)) as Hlen.
  assert (Hne : rm r <> []) by (pose proof M as (_ & _ & _ & Hm); intros E; rewrite E in Hm; destruct Hm as [Hm _]; try lia;
    rewrite zlength_nil in Hm; lia).
  unfold osl_relation_is_simple_output.
  replace (match rm r with [] => true | _ => false end) with false by (destruct (rm r); [contradiction|reflexivity]). cbn [orb].
  assert (Hsl : zlength (slice 1 (nout r) (znth [] (rm r) row)) = nout r).
  { unfold slice. rewrite zlength_firstn, zlength_skipn by lia. lia. }
  destruct (Z.eqb_spec (nout r) 0) as [E0|E0].
  { apply (f_equal (fun z => z = 0)) in Hsl. rewrite E0 in Hsl.
    assert (Hnil : slice 1 (nout r) (znth [] (rm r) row) = []) by (apply zlength_0; rewrite E0; rewrite Hsl; reflexivity).
    rewrite Hnil. now destruct (_ =? _). }
  replace ((row <? 0) || (nrows r <? row)) with false by lia.
  rewrite (mget_ok _ _ _ _ _ M) by lia. cbn [bind]. rewrite zero_ok by assumption. cbn [bind].
  destruct (cell (rm r) row 0 =? 0); cbn [negb]; [|reflexivity].
  unfold cfor_ret. replace (Z.to_nat (nout r + 1 - 1)) with (length (slice 1 (nout r) (znth [] (rm r) row)))
    by (unfold zlength in Hsl; lia).
  apply outputs_loop; [assumption|]. intros k Hk. rewrite (mget_ok _ _ _ _ _ M) by (unfold zlength in Hsl; lia). f_equal.
  unfold cell. set (l := znth [] (rm r) row) in *.
  replace (nth k (slice 1 (nout r) l) 0) with (znth 0 (slice 1 (nout r) l) (Z.of_nat k)) by (unfold znth; now rewrite Nat2Z.id).
  unfold slice. rewrite znth_firstn by (unfold zlength in Hsl; lia). rewrite znth_skipn by lia. f_equal; try lia.
Qed.
End E.

(** ** The theorems *)
Definition the_row (r : relation) (i : Z) : list Z := nth (Z.to_nat i) (rows r) [].

Lemma the_row_eq cfg r i : wf_rel cfg r -> 0 < ncols r -> the_row r i = znth [] (rm r) i.
Proof. intros W H. unfold the_row, rows, znth. destruct (Z.eqb_spec (ncols r) 0); [lia|reflexivity]. Qed.

Lemma sum_dot a b row x : zlength row = zlength x + 2 -> 1 <= a ->
  sum_between (prods row x) a (b + 1) = dot (slice a b row) (slice (a - 1) (b - 1) (x ++ [1])).
Proof.
  intros Hl Ha. unfold sum_between, slice, prods, products, values.
  destruct row as [|t row]; [rewrite zlength_nil in Hl; pose proof (zlength_nonneg x); lia|].
  replace (Z.to_nat a) with (S (Z.to_nat (a - 1))) by lia. cbn [combine map skipn].
  replace (Z.to_nat (b - 1 + 1 - (a - 1))) with (Z.to_nat (b + 1 - a)) by lia.
  generalize (Z.to_nat (b + 1 - a)) as n. generalize (Z.to_nat (a - 1)) as m. generalize (x ++ [1]) as y.
  clear. revert row. intros row y m n. revert row y n. induction m as [|m IH]; intros row y n.
  - cbn [skipn]. revert row y. induction n as [|n IH]; intros row y; [reflexivity|].
    destruct row as [|c row], y as [|v y]; try reflexivity. cbn [combine map firstn fold_right dot fst snd]. now rewrite IH.
  - destruct row as [|c row]; cbn [combine map skipn].
    + rewrite !firstn_nil. reflexivity.
    + destruct y as [|v y]; cbn [combine map skipn]; [|apply IH].
      rewrite !firstn_nil. now destruct (firstn n (skipn m row)).
Qed.

Lemma affine_zeros c n : forall x, length x = n -> affine (repeat 0 n ++ [c]) x = c.
Proof.
  induction n as [|n IH]; intros [|v x] H; try discriminate; [reflexivity|]. cbn [repeat app].
  transitivity (0 * v + affine (repeat 0 n ++ [c]) x).
  - destruct (repeat 0 n ++ [c]) eqn:E; [destruct n; discriminate|reflexivity].
  - rewrite IH by (cbn in H; lia). lia.
Qed.
Lemma dot_zeros n : forall l, dot (repeat 0 n) l = 0.
Proof. induction n as [|n IH]; intros [|v l]; cbn [repeat dot]; rewrite ?IH; auto. Qed.

(** The expression printed for the columns [start..stop] (up to the constant) of a row evaluates, at every point, to
    the sum of the coefficients times the values of the columns, opposed on request.  [x] is any point, [env] any
    valuation giving each column's name the coordinate of that column. *)
Theorem C43_subexpression : forall (cfg : config) env r row start oppose names x t,
  wf_rel cfg r -> 0 <= row < nrows r -> 1 <= start < ncols r -> zlength x = ncols r - 2 -> names_values env names x ->
  osl_relation_subexpression r row start (ncols r - 1) oppose names = Ok t ->
  expression_value env t = Some ((if oppose then -1 else 1) *
    dot (slice start (ncols r - 1) (the_row r row)) (slice (start - 1) (ncols r - 2) (x ++ [1]))).
Proof.
  intros cfg env r row start oppose names x t W Hrow Hst Hx Hn H. unfold osl_relation_subexpression in H.
  inv_bind H. destruct v as [l f]. apply Ok_inj in H. subst l.
  rewrite (the_row_eq cfg) by (auto; lia). pose proof (wf_mat r W) as M.
  pose proof (mat_row _ _ _ row M Hrow ltac:(lia)) as Hlen.
  replace (ncols r - 2) with (ncols r - 1 - 1) by lia. rewrite <- sum_dot by lia.
  destruct (loop_value env r row oppose names x start (ncols r - 1) t f W Hrow Hx Hn ltac:(lia) ltac:(lia) ltac:(lia) E)
    as [He|(_ & _ & Hlt & _)]; [|lia].
  now apply ex_value.
Qed.
Print Assumptions C43_subexpression.

(** osl_relation_expression: the whole row. *)
Theorem C43_expression : forall (cfg : config) env r row names x t,
  wf_rel cfg r -> 0 <= row < nrows r -> zlength x = ncols r - 2 -> names_values env names x ->
  osl_relation_expression r row names = Ok t ->
  expression_value env t = Some (affine (tl (the_row r row)) x).
Proof.
  intros cfg env r row names x t W Hrow Hx Hn H. pose proof (zlength_nonneg x) as Hx0.
  unfold osl_relation_expression, osl_relation_subexpression in H.
  inv_bind H. destruct v as [l f]. apply Ok_inj in H. subst l.
  rewrite (the_row_eq cfg) by (auto; lia). pose proof (wf_mat r W) as M.
  pose proof (mat_row _ _ _ row M Hrow ltac:(lia)) as Hlen.
  destruct (loop_value env r row false names x 1 (ncols r - 1) t f W Hrow Hx Hn ltac:(lia) ltac:(lia) ltac:(lia) E)
    as [He|(_ & _ & Hlt & _)]; [|lia].
  apply ex_value in He. rewrite He. f_equal.
  destruct (znth [] (rm r) row) as [|tag coeffs] eqn:Er; [rewrite zlength_nil in Hlen; lia|]. cbn [tl].
  rewrite (affine_sum tag) by lia. rewrite Hlen. replace (ncols r - 1 + 1) with (ncols r) by lia. lia.
Qed.
Print Assumptions C43_expression.

(** osl_relation_is_simple_output says exactly whether the row is an equality with one 1 or one -1 among its outputs. *)
Theorem C43_simple_output : forall (cfg : config) r row,
  wf_rel cfg r -> 0 <= row < nrows r -> 0 <= nout r -> nout r + 1 <= ncols r ->
  exists s, osl_relation_is_simple_output r row = Ok s /\
    (s <> 0 -> simple_output (nout r) (the_row r row) s) /\
    (forall s', simple_output (nout r) (the_row r row) s' -> s = s').
Proof.
  intros cfg r row W Hrow Ho Hc. rewrite simple_output_eq by assumption. eexists. split; [reflexivity|].
  rewrite (the_row_eq cfg) by (auto; lia). unfold cell. change (znth 0 (znth [] (rm r) row) 0) with (nth 0 (znth [] (rm r) row) 0).
  split.
  - destruct (Z.eqb_spec (nth 0 (znth [] (rm r) row) 0) 0) as [Et|]; [|congruence]. intros H.
    destruct (outputs_sign_true _ H) as (Hs & a & b & E). split; [assumption|]. split; [assumption|]. eauto.
  - intros s' (-> & Hs & a & b & ->). cbn [Z.eqb]. now apply outputs_sign_complete.
Qed.
Print Assumptions C43_simple_output.

(** The comment of a row of a relation says what the row says: at every point, the comparison it spells out is true
    exactly when the point satisfies the constraint.  In access relations the array is called by its name: its rank
    among the names is the array identifier.  [u] is [r] followed by the parts after it.  (Comments of 2047 characters
    or more are cut.) *)
Theorem C43_comment : forall (cfg : config) env u r rest row names arrays x c,
  ndebug cfg = false -> u = r :: rest -> wf_union cfg u -> 0 <= row < nrows r ->
  0 <= nout r <= ncols r - 2 -> zlength x = ncols r - 2 ->
  names_values env names x -> arrays_values env (elems arrays) ->
  osl_relation_sprint_comment u r row names arrays = Ok c -> zlength c < 2047 ->
  exists b, comment_claim env c = Some b /\ (b = true <-> satisfies x (the_row r row)).
Proof.
  intros cfg env u r rest row names arrays x c Hnd Hu WU Hrow Hout Hx Hn Ha H Hc.
  assert (W : wf_rel cfg r) by (subst u; now apply Forall_inv in WU).
  pose proof W as (Hp & _). pose proof (wf_mat r W) as M. pose proof (zlength_nonneg x) as Hx0.
  pose proof (mat_row _ _ _ row M Hrow ltac:(lia)) as Hlen.
  rewrite (the_row_eq cfg) by (auto; lia).
  unfold osl_relation_sprint_comment in H. rewrite simple_output_eq in H by (auto; lia). cbn [bind] in H.
  set (R := znth [] (rm r) row) in *.
  destruct R as [|tag coeffs] eqn:ER; [rewrite zlength_nil in Hlen; lia|].
  assert (Htag : cell (rm r) row 0 = tag) by (unfold cell; fold R; rewrite ER; reflexivity).
  rewrite Htag in H.
  assert (Hsat : satisfies x (tag :: coeffs) <->
     if tag =? 0 then sum_between (prods (tag :: coeffs) x) 1 (ncols r) = 0
     else sum_between (prods (tag :: coeffs) x) 1 (ncols r) >= 0).
  { cbn [satisfies]. rewrite (affine_sum tag) by lia. rewrite Hlen. reflexivity. }
  enough (Hgoal : exists b, comment_claim env c = Some b /\ (b = true <->
     if tag =? 0 then sum_between (prods (tag :: coeffs) x) 1 (ncols r) = 0
     else sum_between (prods (tag :: coeffs) x) 1 (ncols r) >= 0))
    by (destruct Hgoal as (b & Hb1 & Hb2); exists b; split; [assumption|]; rewrite Hsat; assumption).
  clear Hsat.
  assert (Hsnp : forall t, zlength (snp t) < 2047 -> snp t = t).
  { intros t Ht. unfold snp in *. apply firstn_all2. unfold zlength in Ht. rewrite firstn_length in Ht. lia. }
  assert (Hclaim : forall lhs o rhs va vb, ex env lhs va -> expression_value env rhs = Some vb -> zlength o = 3 ->
     comment_claim env ((lit "   ## " ++ lhs) ++ " "%char :: o ++ rhs) =
     if str_eqb o (lit "== ") then Some (va =? vb) else if str_eqb o (lit ">= ") then Some (va >=? vb) else None).
  { intros lhs o rhs va vb Hl Hr Ho. destruct o as [|o1 [|o2 [|o3 [|]]]]; unfold zlength in Ho; cbn [length] in Ho; try lia.
    rewrite <- app_assoc. change (lit "   ## ") with ([" "; " "; " "; "#"; "#"; " "]%char).
    cbn [app]. cbn [comment_claim]. change (str_eqb _ (lit "   ## ")) with true. cbv iota.
    rewrite at_blank_app by (eapply ex_no_blank; eassumption). rewrite (ex_value _ _ _ Hl), Hr. reflexivity. }
  destruct (Z.eqb_spec tag 0) as [Ht0|Ht0].
  2:{ (* an inequality *)
    cbn [Z.eqb negb] in H. inv_bind H. rename v into e. rewrite (mget_ok _ _ _ _ _ M) in H by lia. cbn [bind] in H.
    rewrite zero_ok in H by assumption. cbn [bind] in H. rewrite Htag in H.
    destruct (Z.eqb_spec tag 0); [contradiction|]. apply Ok_inj in H. subst c.
    rewrite zlength_app in Hc. change (zlength (lit " >= 0")) with 5 in Hc. rewrite Hsnp by lia.
    unfold osl_relation_expression, osl_relation_subexpression in E. inv_bind E. destruct v as [l f]. apply Ok_inj in E. subst l.
    destruct (loop_value env r row false names x 1 (ncols r - 1) e f W Hrow Hx Hn ltac:(lia) ltac:(lia) ltac:(lia) E0)
      as [He|(_ & _ & Hlt & _)]; [|lia].
    fold R in He. rewrite ER in He. replace (ncols r - 1 + 1) with (ncols r) in He by lia.
    change (lit " >= 0") with (" "%char :: lit ">= " ++ lit "0").
    rewrite (Hclaim e (lit ">= ") (lit "0") _ 0 He eq_refl eq_refl). change (str_eqb (lit ">= ") (lit "== ")) with false.
    change (str_eqb (lit ">= ") (lit ">= ")) with true. cbv iota. eexists. split; [reflexivity|].
    rewrite Z.geb_leb, Z.leb_le. lia. }
  rewrite Ht0 in *. clear Ht0 tag.
  set (sg := outputs_sign (slice 1 (nout r) (0 :: coeffs)) (true, 0)) in *.
  destruct (Z.eqb_spec sg 0) as [Es|Es]; cbn [negb] in H.
  { (* an equality in general *)
    inv_bind H. rename v into e. rewrite (mget_ok _ _ _ _ _ M) in H by lia. cbn [bind] in H.
    rewrite zero_ok in H by assumption. cbn [bind] in H. rewrite Htag in H. cbn [Z.eqb] in H. apply Ok_inj in H. subst c.
    rewrite zlength_app in Hc. change (zlength (lit " == 0")) with 5 in Hc. rewrite Hsnp by lia.
    unfold osl_relation_expression, osl_relation_subexpression in E. inv_bind E. destruct v as [l f]. apply Ok_inj in E. subst l.
    destruct (loop_value env r row false names x 1 (ncols r - 1) e f W Hrow Hx Hn ltac:(lia) ltac:(lia) ltac:(lia) E0)
      as [He|(_ & _ & Hlt & _)]; [|lia].
    fold R in He. rewrite ER in He. replace (ncols r - 1 + 1) with (ncols r) in He by lia.
    change (lit " == 0") with (" "%char :: lit "== " ++ lit "0").
    rewrite (Hclaim e (lit "== ") (lit "0") _ 0 He eq_refl eq_refl).
    change (str_eqb (lit "== ") (lit "== ")) with true. cbv iota. eexists. split; [reflexivity|].
    rewrite Z.eqb_eq. lia. }
  (* an output *)
  destruct (outputs_sign_true _ Es) as (Hs1 & za & zb & Hsl). fold sg in Hs1, Hsl.
  assert (Hout1 : 1 <= nout r).
  { destruct (Z.eq_dec (nout r) 0) as [E0|]; [|lia]. exfalso. rewrite E0 in Hsl. unfold slice in Hsl. cbn in Hsl. destruct za; discriminate. }
  assert (Hnz : exists j, 1 <= j <= nout r /\ cell (rm r) row j <> 0).
  { exists (1 + Z.of_nat za). assert (Hl : zlength (slice 1 (nout r) (0 :: coeffs)) = nout r).
    { unfold slice. rewrite zlength_firstn, zlength_skipn by lia. lia. }
    rewrite Hsl, zlength_app, zlength_cons, !zlength_repeat in Hl. split; [lia|].
    unfold cell. fold R. rewrite ER.
    assert (Hz : znth 0 (slice 1 (nout r) (0 :: coeffs)) (Z.of_nat za) = sg).
    { rewrite Hsl, znth_app by lia. rewrite zlength_repeat. destruct (Z.ltb_spec (Z.of_nat za) (Z.of_nat za)); [lia|].
      rewrite Z.sub_diag. reflexivity. }
    unfold slice in Hz. rewrite znth_firstn, znth_skipn in Hz by lia. replace (1 + Z.of_nat za) with (Z.of_nat za + 1) by lia. rewrite ?(Z.add_comm 1) in *. congruence. }
  inv_bind H. rename v into e. unfold osl_relation_subexpression in E. inv_bind E. destruct v as [l f]. apply Ok_inj in E. subst l.
  destruct (loop_value env r row _ names x 1 (nout r) e f W Hrow Hx Hn ltac:(lia) ltac:(lia) ltac:(lia) E0)
      as [He|(_ & _ & _ & H0)].
  2:{ destruct Hnz as (j & Hj & Hnz). specialize (H0 j Hj). contradiction. }
  fold R in He. rewrite ER in He.
  rewrite (mget_ok _ _ _ _ _ M) in H by lia. cbn [bind] in H. rewrite zero_ok in H by assumption. cbn [bind] in H.
  pose proof (sum_split (prods (0 :: coeffs) x) 1 (nout r + 1) (ncols r) ltac:(lia) ltac:(lia)) as Hsplit.
  destruct (negb (osl_relation_is_access r) || (cell (rm r) row 1 =? 0)) eqn:Eacc.
  - (* output == expression *)
    inv_bind H. rename v into e2. apply Ok_inj in H. subst c. rewrite zlength_app in Hc.
    pose proof (zlength_nonneg (snp (lit "   ## " ++ e))). pose proof (zlength_nonneg (snp (lit " == " ++ e2))).
    rewrite !Hsnp by lia.
    unfold osl_relation_subexpression in E. inv_bind E. destruct v as [l f2]. apply Ok_inj in E. subst l.
    destruct (loop_value env r row _ names x (nout r + 1) (ncols r - 1) e2 f2 W Hrow Hx Hn ltac:(lia) ltac:(lia) ltac:(lia) E1)
      as [He2|(_ & _ & Hlt & _)]; [|lia].
    fold R in He2. rewrite ER in He2. replace (ncols r - 1 + 1) with (ncols r) in He2 by lia.
    change (lit " == " ++ e2) with (" "%char :: lit "== " ++ e2).
    rewrite (Hclaim e (lit "== ") e2 _ _ He (ex_value _ _ _ He2) eq_refl).
    change (str_eqb (lit "== ") (lit "== ")) with true. cbv iota. eexists. split; [reflexivity|].
    rewrite Z.eqb_eq, Hsplit. destruct Hs1 as [-> | ->]; cbn [Z.ltb Z.compare]; lia.
  - (* the array *)
    apply orb_false_iff in Eacc as [Eacc Ec1]. apply negb_false_iff in Eacc.
    inv_bind H. rename v into id. inv_bind H. rename v into a. apply Ok_inj in H. subst c. rewrite zlength_app in Hc.
    pose proof (zlength_nonneg (snp (lit "   ## " ++ e))). pose proof (zlength_nonneg (snp (lit " == " ++ a))).
    rewrite !Hsnp by lia.
    assert (Hid : id - 1 >= 0 /\ nth_error (elems arrays) (Z.to_nat (id - 1)) = Some a).
    { unfold aget in E1. destruct (Z.ltb_spec (id - 1) 0); [discriminate|]. destruct (nth_error _ _); [|discriminate].
      split; [lia|congruence]. }
    destruct Hid as [Hid Hnth]. destruct (Ha _ _ Hnth) as [Hok Hval]. rewrite Z2Nat.id in Hval by lia.
    replace (id - 1 + 1) with id in Hval by lia.
    destruct (get_array_id_sound u id WU Hnd E ltac:(lia)) as [HF _]. subst u. apply Forall_inv in HF.
    change (lit " == " ++ a) with (" "%char :: lit "== " ++ a).
    rewrite (Hclaim e (lit "== ") a _ id He (ex_value _ _ _ (ex_pos env a id (term_name env a id Hok Hval))) eq_refl).
    change (str_eqb (lit "== ") (lit "== ")) with true. cbv iota. eexists. split; [reflexivity|].
    rewrite Z.eqb_eq.
    destruct HF as (Hid0 & pre & post & ca & cc & Hca & Heq & Hrows & Hoth).
    assert (HR : rows r = rm r) by (unfold rows; destruct (Z.eqb_spec (ncols r) 0); [lia|reflexivity]).
    assert (Hthis : 0 :: coeffs = 0 :: ca :: repeat 0 (Z.to_nat (ncols r - 3)) ++ [cc]).
    { rewrite <- ER. unfold R. rewrite HR in Hrows. rewrite Hrows.
      destruct (Z.eq_dec row (zlength pre)) as [->|Hne].
      - rewrite znth_app by apply zlength_nonneg. destruct (Z.ltb_spec (zlength pre) (zlength pre)); [lia|].
        rewrite Z.sub_diag. reflexivity.
      - exfalso. assert (Hin : In R (pre ++ post)).
        { unfold R. rewrite Hrows. rewrite znth_app by lia. pose proof M as (_ & _ & _ & Hm). destruct Hm as [Hm _]; [lia|lia|].
          rewrite Hrows, zlength_app, zlength_cons in Hm. apply in_or_app.
          destruct (Z.ltb_spec row (zlength pre)).
          - left. unfold znth. apply nth_In. unfold zlength in *. lia.
          - right. rewrite znth_cons by lia. destruct (Z.eqb_spec (row - zlength pre) 0); [lia|].
            unfold znth. apply nth_In. unfold zlength in *. lia. }
        rewrite Forall_forall in Hoth. specialize (Hoth R Hin). unfold cell in Ec1. fold R in Ec1. unfold znth in Ec1.
        change (Z.to_nat 1) with 1%nat in Ec1. rewrite Hoth in Ec1. discriminate. }
    injection Hthis as Hco. subst coeffs.
    destruct x as [|x1 x']; [rewrite zlength_nil in Hx; lia|].
    assert (Hcoeffs : zlength x' = ncols r - 3) by (rewrite zlength_cons in Hx; lia).
    assert (Hfull : sum_between (prods (0 :: ca :: repeat 0 (Z.to_nat (ncols r - 3)) ++ [cc]) (x1 :: x')) 1 (ncols r) = ca * x1 + cc).
    { rewrite <- Hlen at 2. rewrite <- (affine_sum 0) by (rewrite Hlen; lia).
      transitivity (ca * x1 + affine (repeat 0 (Z.to_nat (ncols r - 3)) ++ [cc]) x').
      - destruct (repeat 0 (Z.to_nat (ncols r - 3)) ++ [cc]) eqn:Erep; [destruct (repeat 0 _); discriminate|reflexivity].
      - f_equal. apply affine_zeros. unfold zlength in Hcoeffs. lia. }
    assert (Hza : za = 0%nat /\ sg = ca).
    { unfold slice in Hsl. replace (Z.to_nat (nout r + 1 - 1)) with (S (Z.to_nat (nout r - 1))) in Hsl by lia.
      change (Z.to_nat 1) with 1%nat in Hsl. cbn [skipn firstn] in Hsl.
      destruct za as [|za]; cbn [repeat app] in Hsl; injection Hsl as Hsl1 Hsl2; [auto|]. congruence. }
    destruct Hza as [-> Hsg]. cbn [repeat app] in Hsl.
    assert (Hpart : sum_between (prods (0 :: ca :: repeat 0 (Z.to_nat (ncols r - 3)) ++ [cc]) (x1 :: x')) 1 (nout r + 1) = ca * x1).
    { rewrite sum_dot by lia. rewrite Hsl, Hsg. unfold slice. replace (Z.to_nat (nout r - 1 + 1 - (1 - 1))) with (S (Z.to_nat (nout r - 1))) by lia.
      change (Z.to_nat (1 - 1)) with 0%nat. cbn [skipn app firstn dot]. rewrite dot_zeros. lia. }
    rewrite Hpart, Hfull. rewrite Hsg in *. destruct Hs1 as [-> | ->]; cbn [Z.ltb Z.compare]; lia.
Qed.
Print Assumptions C43_comment.

Lemma Some_inj {A} (x y : A) : Some x = Some y -> x = y.
Proof. congruence. Qed.
(** Examples.  The domain [-2*i+N-1 == 0, i >= 0] with [i = 4], [N = 9]. *)
Definition ex_dom : relation := mkrel TYPE_DOMAIN 64 2 4 1 0 0 1 [[0;-2;1;-1];[1;1;0;0]].
Definition ex_names : list str := [lit "e/i"; lit "i"; lit "N"; lit "1"].
Definition ex_env (n : str) : option Z :=
  if str_eqb n (lit "i") then Some 4 else if str_eqb n (lit "N") then Some 9
  else if str_eqb n (lit "Arr") then Some 2 else if str_eqb n (lit "[1]") then Some 12
  else if str_eqb n (lit "A") then Some 1 else if str_eqb n (lit "B") then Some 2 else None.
Ltac name_lit := unfold name_ok; repeat match goal with |- _ /\ _ => split | |- Forall _ _ => constructor | |- _ => discriminate | |- _ => reflexivity end.
Example C43_ex_values : wf_rel lp64_debug ex_dom /\ names_values ex_env ex_names [4; 9] /\
  arrays_values ex_env [lit "A"; lit "B"].
Proof.
  split; [unfold wf_rel; cbn [ex_dom rtype rprec nrows ncols rm]; LoopLemmas.wf_lit; cbn; try lia|]. split.
  - split; [reflexivity|]. intros [|[|[|j]]] n v; cbn; intros Hn Hv; try discriminate; injection Hn as <-; injection Hv as <-.
    + split; [|reflexivity]. name_lit.
    + split; [|reflexivity]. name_lit.
  - intros [|[|[|k]]] n; cbn; intros Hn; try discriminate; injection Hn as <-; split; try reflexivity; name_lit.
Qed.
Example C43_ex_expression : @osl_relation_expression lp64_debug ex_dom 0 ex_names = Ok (lit "-2*i+N-1") /\
  expression_value ex_env (lit "-2*i+N-1") = Some 0 /\ affine (tl (the_row ex_dom 0)) [4; 9] = 0.
Proof. vm_compute. repeat split. Qed.
Example C43_ex_subexpression : @osl_relation_subexpression lp64_debug ex_dom 0 2 3 true ex_names = Ok (lit "-N+1") /\
  expression_value ex_env (lit "-N+1") = Some (-8) /\
  -1 * dot (slice 2 3 (the_row ex_dom 0)) (slice 1 2 ([4; 9] ++ [1])) = -8.
Proof. vm_compute. repeat split. Qed.
Example C43_ex_comment :
  osl_relation_sprint_comment (cfg := lp64_debug) [ex_dom] ex_dom 1 ex_names None = Ok (lit "   ## i >= 0") /\
  comment_claim ex_env (lit "   ## i >= 0") = Some true.
Proof. vm_compute. split; reflexivity. Qed.
(** A read of [B[i+3]]... the first row names the array, the second the subscript. *)
Definition ex_acc : relation := mkrel TYPE_READ 64 2 6 2 1 0 1 [[0;-1;0;0;0;2];[0;0;-1;2;0;3]].
Definition ex_acc_names : list str := [lit "e/i"; lit "Arr"; lit "[1]"; lit "i"; lit "N"; lit "1"].
Example C43_ex_access : wf_rel lp64_debug ex_acc /\ names_values ex_env ex_acc_names [2; 12; 4; 9] /\
  osl_relation_sprint_comment (cfg := lp64_debug) [ex_acc] ex_acc 0 ex_acc_names (Some [lit "A"; lit "B"]) = Ok (lit "   ## Arr == B") /\
  osl_relation_sprint_comment (cfg := lp64_debug) [ex_acc] ex_acc 1 ex_acc_names (Some [lit "A"; lit "B"]) = Ok (lit "   ## [1] == 2*i+3") /\
  comment_claim ex_env (lit "   ## Arr == B") = Some true /\
  comment_claim ex_env (lit "   ## [1] == 2*i+3") = Some false.
Proof.
  split; [unfold wf_rel; cbn [ex_acc rtype rprec nrows ncols rm]; LoopLemmas.wf_lit; cbn; try lia|]. split.
  - split; [reflexivity|]. intros [|[|[|[|[|j]]]]] n v; cbn; intros Hn Hv; try discriminate; injection Hn as <-; injection Hv as <-;
      (split; [|reflexivity]); name_lit.
  - vm_compute. repeat split.
Qed.
Example C43_ex_simple : @osl_relation_is_simple_output lp64_debug ex_acc 1 = Ok (-1) /\
  simple_output (nout ex_acc) (the_row ex_acc 1) (-1).
Proof. split; [reflexivity|]. split; [reflexivity|]. split; [now right|]. exists 1%nat, 0%nat. reflexivity. Qed.

(** The range check of osl_relation_is_simple_output lets the row just after the last one through: the matrix is
    read out of its bounds. *)
Theorem C43_simple_output_range_refuted : forall (cfg : config) r, wf_rel cfg r -> rm r <> [] -> nout r <> 0 ->
  osl_relation_is_simple_output r (nrows r) = UB.
Proof.
  intros cfg r W Hne Ho. pose proof (wf_mat r W) as (Hr & Hc & Hz & Hm).
  assert (Hl : zlength (rm r) = nrows r).
  { destruct (Z.eq_dec (nrows r) 0); [rewrite Hz in Hne by auto; congruence|].
    destruct (Z.eq_dec (ncols r) 0); [rewrite Hz in Hne by auto; congruence|]. apply Hm; lia. }
  unfold osl_relation_is_simple_output, mget. rewrite (aget_ub (rm r)) by lia.
  destruct (rm r); [congruence|]. destruct (Z.eqb_spec (nout r) 0); [congruence|]. cbn [orb].
  destruct (Z.ltb_spec (nrows r) 0); [lia|]. destruct (Z.ltb_spec (nrows r) (nrows r)); [lia|]. reflexivity.
Qed.
Print Assumptions C43_simple_output_range_refuted.

(** A comment too long for its buffer is cut: with a name of 2030 characters and one of 12, the comment of
    [name1 + name2 >= 0] ends within the second name and claims nothing. *)
Theorem C43_long_refuted : exists env r names x c,
  wf_rel lp64_debug r /\ names_values env names x /\ satisfies x (the_row r 0) /\
  osl_relation_sprint_comment (cfg := lp64_debug) [r] r 0 names None = Ok c /\ comment_claim env c = None.
Proof.
  exists (fun n => if str_eqb n (repeat "x"%char 2030) || str_eqb n (repeat "y"%char 12) then Some 1 else None),
    (mkrel TYPE_DOMAIN 64 1 4 1 0 0 1 [[1;1;1;0]]),
    [lit "e/i"; repeat "x"%char 2030; repeat "y"%char 12; lit "1"], [1; 1].
  eexists. split; [unfold wf_rel; cbn [rtype rprec nrows ncols rm]; LoopLemmas.wf_lit; cbn; try lia|]. split.
  - split; [reflexivity|]. intros [|[|[|j]]] n v Hn Hv; cbn [nth_error] in Hn, Hv; try discriminate;
      apply Some_inj in Hv; apply Some_inj in Hn; subst n v; (split; [|vm_compute; reflexivity]);
      (split; [discriminate|split; [reflexivity|]]);
      apply Forall_forall; intros c Hc; apply repeat_spec in Hc; subst c; repeat split; discriminate.
  - split; [vm_compute; discriminate|]. split; [vm_compute; reflexivity|]. vm_compute. reflexivity.
Qed.
Print Assumptions C43_long_refuted.

(** With names a little longer the expression itself does not fit its buffer of 2048 bytes: undefined behaviour. *)
Theorem C43_overflow_refuted :
  osl_relation_sprint_comment (cfg := lp64_debug) [mkrel TYPE_DOMAIN 64 1 4 1 0 0 1 [[1;1;1;0]]]
    (mkrel TYPE_DOMAIN 64 1 4 1 0 0 1 [[1;1;1;0]]) 0
    [lit "e/i"; repeat "x"%char 2030; repeat "y"%char 30; lit "1"] None = UB.
Proof. vm_compute. reflexivity. Qed.
Print Assumptions C43_overflow_refuted.

(** ** The header line: the name of column [j] stands above the coefficients of column [j] *)
Lemma column_field_centred (s : str) : column_field s = centred s.
Proof.
  unfold column_field, centred, short_name, FMT_LENGTH, zlength.
  destruct (Nat.leb_spec (length s) 4) as [H|H].
  - destruct (Z.ltb_spec (Z.of_nat (length s)) 4) as [H'|H'].
    + destruct (Z.leb_spec (Z.of_nat (length s)) (Z.of_nat (length s))); [|lia].
      do 5 (destruct s as [|? s]; cbn [length] in *; [reflexivity|]). cbn in H'. lia.
    + replace (length s) with 4%nat by lia. reflexivity.
  - destruct (Z.ltb_spec (Z.of_nat (length s)) 4) as [H'|H']; [lia|].
    destruct (Z.leb_spec (Z.of_nat (length s)) 4); [lia|].
    do 3 (destruct s as [|? s]; cbn [length] in H; [lia|]). reflexivity.
Qed.
Lemma centred_length s : length (centred s) = 4%nat.
Proof.
  unfold centred. rewrite !app_length, !repeat_length.
  assert (H : (length (short_name s) <= 4)%nat).
  { unfold short_name. destruct (Nat.leb_spec (length s) 4); [assumption|]. rewrite app_length, firstn_length. change (length (lit ".")) with 1%nat. lia. }
  revert H. generalize (length (short_name s)). intros n H. do 5 (destruct n as [|n]; [reflexivity|]). lia.
Qed.
Lemma column_fields_spec r : forall strings i, exists seps, length seps = length strings /\
  column_fields r i strings = concat (map (fun p : str * ascii => centred (fst p) ++ [snd p]) (combine strings seps)) /\
  forall j c, nth_error seps j = Some c -> (c = "|"%char /\ ends_group r (i + Z.of_nat j)) \/ (c = " "%char /\ ~ ends_group r (i + Z.of_nat j)).
Proof.
  induction strings as [|s tl IH]; intros i; cbn [column_fields].
  - exists []. split; [reflexivity|]. split; [reflexivity|]. intros [|j] c; discriminate.
  - destruct (IH (i + 1)) as (seps & Hl & Hf & Hs).
    set (b := (i + 1 =? 1) || (i + 1 =? 1 + nout r) || (i + 1 =? 1 + nout r + nin r) || (i + 1 =? 1 + nout r + nin r + nloc r) || (i + 1 =? 1 + nout r + nin r + nloc r + npar r)).
    exists ((if b then "|"%char else " "%char) :: seps). split; [cbn; lia|]. split.
    + cbn [combine map concat fst snd]. rewrite Hf, column_field_centred. rewrite <- !app_assoc. f_equal. fold b. now destruct b.
    + intros [|j] c Hc; cbn [nth_error] in Hc.
      * apply Some_inj in Hc. rewrite Z.add_0_r. destruct b eqn:Eb; subst b c; [left|right]; (split; [reflexivity|]); unfold ends_group; lia.
      * destruct (Hs j c Hc) as [[E H]|[E H]]; [left|right]; (split; [assumption|]); replace (i + Z.of_nat (S j)) with (i + 1 + Z.of_nat j) by lia; assumption.
Qed.

Theorem C43_header : forall r names col, osl_relation_column_string r names = Ok col ->
  exists fields, col = lit "#" ++ concat fields ++ [c_nl] /\ length fields = length names /\
    forall j name, nth_error names j = Some name -> exists sep,
      nth_error fields j = Some (centred name ++ [sep]) /\
      (sep = "|"%char <-> ends_group r (Z.of_nat j)) /\ (sep = "|"%char \/ sep = " "%char) /\
      length (centred name ++ [sep]) = 5%nat.
Proof.
  intros r names col H. unfold osl_relation_column_string in H. apply buf_store_eq in H.
  destruct (column_fields_spec r names 0) as (seps & Hl & Hf & Hs).
  exists (map (fun p : str * ascii => centred (fst p) ++ [snd p]) (combine names seps)). split; [|split].
  - subst col. now rewrite Hf.
  - rewrite map_length, combine_length. lia.
  - intros j name Hj. assert (Hlt : (j < length names)%nat) by (apply nth_error_Some; congruence).
    destruct (nth_error seps j) as [sep|] eqn:Es; [|apply nth_error_None in Es; lia]. exists sep. split.
    + rewrite nth_error_map. assert (E : forall (a : list str) (b : list ascii) k x y, nth_error a k = Some x -> nth_error b k = Some y -> nth_error (combine a b) k = Some (x, y)).
      { induction a as [|a0 a IHa]; intros [|b0 b] [|k] x y Hx Hy; try discriminate; cbn in *; [congruence|]. now apply IHa. }
      now rewrite (E _ _ _ _ _ Hj Es).
    + destruct (Hs j sep Es) as [[-> Hg]|[-> Hg]]; rewrite Z.add_0_l in Hg.
      * split; [tauto|]. split; [now left|]. rewrite app_length, centred_length. reflexivity.
      * split; [split; [discriminate|contradiction]|]. split; [now right|]. rewrite app_length, centred_length. reflexivity.
Qed.
Print Assumptions C43_header.
Example C43_ex_header : osl_relation_column_string ex_acc [lit "e/i"; lit "Arr"; lit "[1]"; lit "iterator"; lit "N"; lit "1"]
  = Ok (lit "# e/i| Arr  [1]|ite.|  N |  1  " ++ [c_nl]).
Proof. vm_compute. reflexivity. Qed.
