(** * Printing relations succeeds (C20, C43) *)
From Coq Require Import ZifyBool ZifyNat.
From Verif Require Import Base IntModel VectorModel RelationModel UtilModel StringsModel RelTextModel
  Spec RelSpec TextSpec ExprSpec LoopLemmas IntProofs TextInt VectorProofs RelationProofs UtilProofs
  RelationProofs4 RelTextProofs RelTextProofs2 RelTextProofs3 PropStrings PropRelation2 PropRelText PropExpr.

(** ** The names of the columns *)
Lemma aset_next {A} (l : list A) (a : option A) rest s :
  aset (map Some l ++ a :: rest) (zlength l) (Some s) = Ok (map Some (l ++ [s]) ++ rest).
Proof.
  rewrite aset_ok. 2:{ rewrite zlength_app, zlength_cons, zlength_map. pose proof (zlength_nonneg l). pose proof (zlength_nonneg rest). lia. }
  f_equal. unfold zlength. rewrite Nat2Z.id. induction l as [|x l IH]; [reflexivity|]. cbn [length map app list_set]. now rewrite IH.
Qed.
Lemma repeat_next {A} (x : A) k : 0 < k -> repeat x (Z.to_nat k) = x :: repeat x (Z.to_nat (k - 1)).
Proof. intros H. replace (Z.to_nat k) with (S (Z.to_nat (k - 1))) by lia. reflexivity. Qed.
Lemma firstn_next {A} (d : A) l i : 0 <= i < zlength l -> firstn (Z.to_nat (i + 1)) l = firstn (Z.to_nat i) l ++ [znth d l i].
Proof.
  intros H. apply (list_ext d).
  - rewrite zlength_app, !zlength_firstn, zlength_one by lia. lia.
  - intros j Hj. rewrite zlength_firstn in Hj by lia. rewrite znth_app by lia. rewrite zlength_firstn by lia.
    rewrite znth_firstn by lia. destruct (Z.ltb_spec j (Z.min i (zlength l))).
    + now rewrite znth_firstn by lia.
    + replace (j - Z.min i (zlength l)) with 0 by lia. replace j with i by lia. reflexivity.
Qed.

(** Filling the slots [lo .. hi-1] with the names [g lo .. g (hi-1)]. *)
Lemma fill_names (f : Z -> list (option str) -> res (list (option str))) (src l : list str) k :
  zlength src <= k ->
  (forall i a, 0 <= i < zlength src -> f (zlength l + i) a = aset a (zlength l + i) (Some (znth [] src i))) ->
  cfor (zlength l) (zlength l + zlength src) f (map Some l ++ repeat None (Z.to_nat k)) =
  Ok (map Some (l ++ src) ++ repeat None (Z.to_nat (k - zlength src))).
Proof.
  intros Hk Hf. pose proof (zlength_nonneg src) as H0.
  destruct (cfor_inv (fun i s => s = map Some (l ++ firstn (Z.to_nat (i - zlength l)) src) ++ repeat None (Z.to_nat (k - (i - zlength l))))
    (zlength l) (zlength l + zlength src) f (map Some l ++ repeat None (Z.to_nat k))) as (s' & E & ->).
  - lia.
  - rewrite Z.sub_diag. cbn [Z.to_nat firstn]. now rewrite app_nil_r, Z.sub_0_r.
  - intros i s Hi ->. pose proof (fun a => Hf (i - zlength l) a ltac:(lia)) as X.
    replace (zlength l + (i - zlength l)) with i in X by lia. rewrite X. clear X.
    assert (Ei : i = zlength (l ++ firstn (Z.to_nat (i - zlength l)) src)) by (rewrite zlength_app, zlength_firstn; lia).
    rewrite (repeat_next None) by lia. pose proof (aset_next (l ++ firstn (Z.to_nat (i - zlength l)) src) (@None str)) as X.
    rewrite <- Ei in X. rewrite X. eexists. split; [reflexivity|].
    replace (i + 1 - zlength l) with (i - zlength l + 1) by lia. rewrite (firstn_next (A:=str) [] src) by lia.
    rewrite <- app_assoc. do 3 f_equal. lia.
  - rewrite E. replace (zlength l + zlength src - zlength l) with (zlength src) by lia.
    rewrite (firstn_all2 src) by (unfold zlength; lia). reflexivity.
Qed.

Lemma copy_names_fill (src : strings) l k n : 0 <= n -> n <= zlength (elems src) -> n <= k ->
  copy_names src (zlength l) (n + zlength l) (map Some l ++ repeat None (Z.to_nat k)) =
  Ok (map Some (l ++ firstn (Z.to_nat n) (elems src)) ++ repeat None (Z.to_nat (k - n))).
Proof.
  intros Hn Hs Hk. unfold copy_names.
  pose proof (fill_names (fun i a => s <- aget (elems src) (i - zlength l) ;; aset a i (Some s))
    (firstn (Z.to_nat n) (elems src)) l k) as X. rewrite zlength_firstn in X by lia.
  replace (Z.min n (zlength (elems src))) with n in X by lia. rewrite (Z.add_comm n). apply X; [lia|].
  intros i a Hi. replace (zlength l + i - zlength l) with i by lia. rewrite (aget_ok (A:=str) []) by lia. cbn [bind].
  now rewrite znth_firstn by lia.
Qed.

Lemma collect_some (l : list str) :
  mapM (fun o : option str => match o with Some s => Ok s | None => UB end) (map Some l) = Ok l.
Proof. induction l as [|s l IH]; [reflexivity|]. cbn [map mapM bind]. now rewrite IH. Qed.

Lemma brackets_length n : forall i, zlength (brackets n i) = Z.of_nat n.
Proof. induction n as [|n IH]; intros i; [reflexivity|]. cbn [brackets]. rewrite zlength_cons, IH. lia. Qed.
Lemma brackets_nth n : forall i j, 0 <= j < Z.of_nat n ->
  znth [] (brackets n i) j = lit "[" ++ print_Z (i + j) ++ lit "]".
Proof.
  induction n as [|n IH]; intros i j Hj; [lia|]. cbn [brackets]. rewrite znth_cons by lia.
  destruct (Z.eqb_spec j 0) as [->|]; [now rewrite Z.add_0_r|]. rewrite IH by lia. do 3 f_equal. lia.
Qed.

Lemma bind_step {A B} (x : res A) (f : A -> res B) a : x = Ok a -> bind x f = f a.
Proof. now intros ->. Qed.

(** osl_relation_strings: every column gets its name. *)
Theorem C43_names : forall r n, coherent_dims r -> enough_names r n ->
  osl_relation_strings r n = Ok (column_names r n).
Proof.
  intros r n (Ho & Hi & Hl & Hp & Hc & Hctx & Hdom & Hacc) (E1 & E2 & E3 & E4 & E5).
  unfold osl_relation_strings. rewrite (repeat_next None) by lia.
  change (None :: repeat None (Z.to_nat (ncols r - 1))) with (map Some ([] : list str) ++ None :: repeat None (Z.to_nat (ncols r - 1))).
  rewrite (aset_next [] None) with (s := lit "e/i"). cbn [bind]. cbn [app].
  assert (Houts : (if osl_relation_is_access r then
          a <- aset (map Some [lit "e/i"] ++ repeat None (Z.to_nat (ncols r - 1))) 1 (Some (lit "Arr")) ;;
          cfor (1 + 1) (nout r + 1) (fun i a =>
            aset a i (Some (lit "[" ++ print_Z (i - 1) ++ lit "]"))) a
        else if (rtype r =? TYPE_DOMAIN) || (rtype r =? TYPE_CONTEXT) then
          copy_names (n_iters n) 1 (nout r + 1) (map Some [lit "e/i"] ++ repeat None (Z.to_nat (ncols r - 1)))
        else copy_names (n_scatt n) 1 (nout r + 1) (map Some [lit "e/i"] ++ repeat None (Z.to_nat (ncols r - 1)))) =
     Ok (map Some (lit "e/i" :: output_names r n) ++ repeat None (Z.to_nat (ncols r - 1 - nout r))) /\
     zlength (output_names r n) = nout r).
  { unfold output_names. change ((rtype r =? TYPE_ACCESS) || (rtype r =? TYPE_READ) || (rtype r =? TYPE_WRITE) || (rtype r =? TYPE_MAY_WRITE))
      with (osl_relation_is_access r). pose proof (is_access_spec r) as Ha. destruct (osl_relation_is_access r).
    - specialize (Hacc (proj1 Ha eq_refl)). rewrite (repeat_next None) by lia.
      change 1 with (zlength [lit "e/i"]) at 2. rewrite (aset_next [lit "e/i"] None). cbn [bind app].
      pose proof (fill_names (fun i a => aset a i (Some (lit "[" ++ print_Z (i - 1) ++ lit "]")))
        (brackets (Z.to_nat (nout r - 1)) 1) [lit "e/i"; lit "Arr"] (ncols r - 1 - 1)) as X.
      rewrite brackets_length in X. change (zlength [lit "e/i"; lit "Arr"]) with 2 in X.
      replace (2 + Z.of_nat (Z.to_nat (nout r - 1))) with (nout r + 1) in X by lia.
      split; [|rewrite zlength_cons, brackets_length; lia].
      change (1 + 1) with 2. etransitivity; [apply X; [lia|]|].
      2:{ cbn [app]. do 3 f_equal. lia. }
      intros i a Hi'. rewrite brackets_nth by lia. do 5 f_equal. lia.
    - assert (Hna : ~ access_type (rtype r)) by (intros X; apply Ha in X; discriminate).
      destruct ((rtype r =? TYPE_DOMAIN) || (rtype r =? TYPE_CONTEXT)) eqn:Et.
      + assert (Hle : nout r <= zlength (elems (n_iters n))) by (apply E1; lia).
        split; [|rewrite zlength_firstn; lia]. apply (copy_names_fill (n_iters n) [lit "e/i"]); lia.
      + assert (Hle : nout r <= zlength (elems (n_scatt n))) by (apply E2; [assumption|lia|lia]).
        split; [|rewrite zlength_firstn; lia]. apply (copy_names_fill (n_scatt n) [lit "e/i"]); lia. }
  destruct Houts as [Houts Hlen]. cbn [map app] in Houts |- *. rewrite Houts. cbn [bind]. clear Houts.
  set (l1 := lit "e/i" :: output_names r n) in *.
  change (Some (lit "e/i") :: map Some (output_names r n)) with (map Some l1).
  assert (L1 : zlength l1 = 1 + nout r) by (unfold l1; rewrite zlength_cons; lia).
  rewrite <- L1. etransitivity; [apply bind_step; apply (copy_names_fill (n_iters n) l1); lia|]. cbv beta.
  set (l2 := l1 ++ firstn (Z.to_nat (nin r)) (elems (n_iters n))).
  assert (L2 : zlength l2 = zlength l1 + nin r) by (unfold l2; rewrite zlength_app, zlength_firstn; lia).
  rewrite <- L2. etransitivity; [apply bind_step; apply (copy_names_fill (n_locals n) l2); lia|]. cbv beta.
  set (l3 := l2 ++ firstn (Z.to_nat (nloc r)) (elems (n_locals n))).
  assert (L3 : zlength l3 = zlength l2 + nloc r) by (unfold l3; rewrite zlength_app, zlength_firstn; lia).
  rewrite <- L3. etransitivity; [apply bind_step; apply (copy_names_fill (n_params n) l3); lia|]. cbv beta.
  set (l4 := l3 ++ firstn (Z.to_nat (npar r)) (elems (n_params n))).
  assert (L4 : zlength l4 = zlength l3 + npar r) by (unfold l4; rewrite zlength_app, zlength_firstn; lia).
  rewrite <- L4. rewrite (repeat_next None) by lia. rewrite aset_next. cbn [bind].
  replace (Z.to_nat (ncols r - 1 - nout r - nin r - nloc r - npar r - 1)) with 0%nat by lia.
  cbn [repeat]. rewrite app_nil_r, collect_some. unfold l4, l3, l2, l1, column_names. cbn [app]. now rewrite <- !app_assoc.
Qed.
Print Assumptions C43_names.

(** ** Printing succeeds *)
Inductive lines : str -> Prop :=
| lines_nil : lines []
| lines_cons l t : no_nl l -> zlength l <= 2046 -> lines t -> lines (l ++ c_nl :: t).
Lemma lines_app a b : lines a -> lines b -> lines (a ++ b).
Proof. induction 1 as [|l t Hl Hn Ht IH]; intros Hb; [assumption|]. rewrite <- app_assoc. cbn [app]. apply lines_cons; auto. Qed.
Lemma lines_one l : no_nl l -> zlength l <= 2046 -> lines (l ++ [c_nl]).
Proof. intros H1 H2. apply lines_cons; auto. constructor. Qed.
Lemma lines_short t : lines t -> short_lines t.
Proof.
  induction 1 as [|l t Hl Hn Ht IH].
  - intros a b c E _. destruct a; [|discriminate]. destruct b; [cbn; lia|discriminate].
  - intros a b c E Hb. revert l Hl Hn E. induction a as [|x a IHa]; intros l Hl Hn E.
    + cbn [app] in E. assert (X : forall (l : str), l ++ c_nl :: t = b ++ c -> (length b <= length l)%nat).
      { clear - Hb. intros l. revert b Hb. induction l as [|y l IHl]; intros b Hb E.
        - destruct b as [|z b]; [cbn; lia|]. cbn in E. injection E as <- _. exfalso. apply Hb. now left.
        - destruct b as [|z b]; [cbn; lia|]. cbn in E. injection E as _ E. apply IHl in E; [cbn; lia|].
          intros Hi. apply Hb. now right. }
      specialize (X l E). unfold zlength in Hn. lia.
    + destruct l as [|y l].
      * cbn in E. injection E as _ E. exact (IH a b c E Hb).
      * cbn in E. injection E as _ E. apply (IHa l); [|rewrite zlength_cons in Hn; lia|exact E].
        intros Hi. apply Hl. now right.
Qed.

Ltac nonl := repeat first [apply no_nl_app; split | assumption | apply no_nl_nil | apply print_Z_no_nl
                          | apply no_nl_firstn | (apply no_nl_cons; [reflexivity|])
                          | (apply no_nl_lit; reflexivity)].
Section P.
Context {cfg : config}.
Hypothesis Hcfg : config_ok cfg.
Variables (K M : Z).
Hypothesis HK : 1 <= K.
Hypothesis HM : 3 <= M.
Definition B := K + M + 3.
Hypothesis HB : B < 2048.

Definition coef_ok (p v : Z) : Prop := - 10 ^ K < v < 10 ^ K /\ representable cfg p v /\ representable cfg p (- v).

Lemma print_length v : - 10 ^ K < v < 10 ^ K -> zlength (print_Z v) <= K + 1.
Proof.
  intros H. pose proof (print_Z_length v (Z.to_nat K) ltac:(lia)) as X. rewrite Z2Nat.id in X by lia.
  specialize (X H). unfold zlength. lia.
Qed.

Lemma element_total p v first cst name : supported cfg p -> - 10 ^ K < v < 10 ^ K -> zlength name <= M ->
  exists t f', osl_relation_expression_element v p first cst name = Ok (t, f') /\ zlength t <= B.
Proof.
  intros Hp Hv Hn. pose proof (print_length v Hv) as Hl. pose proof (zlength_nonneg name) as Hn0.
  pose proof (zlength_nonneg (print_Z v)) as Hv0.
  unfold osl_relation_expression_element. destruct (sign_exact p v Hp) as (E1 & E2 & E3 & E4 & E5).
  rewrite E1, E2, E3, E4, E5. cbn [bind].
  assert (E : osl_int_sprint_txt p v = Ok (print_Z v)).
  { unfold osl_int_sprint_txt, pswitch. destruct (supported_cases _ Hp) as [[-> _]|[-> [-> _]]]; reflexivity. }
  rewrite E. cbn [bind].
  match goal with |- context [bind ?x _] => assert (X : exists t f, x = Ok (t, f) /\ zlength t <= B) end.
  { unfold B. destruct (negb (v =? 0) && negb cst).
    - destruct (first || (v <? 0)); (eexists; eexists; split; [reflexivity|]);
        repeat match goal with |- context [if ?b then _ else _] => destruct b end;
        rewrite ?zlength_app; change (zlength (lit "-")) with 1; change (zlength (lit "+")) with 1;
        change (zlength (lit "*")) with 1; lia.
    - destruct cst; eexists; eexists; (split; [reflexivity|]); [|rewrite zlength_nil; lia].
      repeat match goal with |- context [if ?b then _ else _] => destruct b end;
        rewrite ?zlength_app, ?zlength_nil; change (zlength (lit "+")) with 1; lia. }
  destruct X as (t & f & -> & Ht). cbn [bind]. rewrite buf_store_ok by lia. cbn [bind]. eauto.
Qed.

Lemma oppose_total p v : representable cfg p v -> representable cfg p (- v) -> osl_int_oppose p v = Ok (- v).
Proof. apply (oppose_exact Hcfg). Qed.

Lemma subexpression_total r row start stop oppose (names : list str) : wf_rel cfg r -> 0 <= row < nrows r ->
  Forall (Forall (coef_ok (rprec r))) (rm r) ->
  zlength names = ncols r -> Forall (fun s : str => zlength s <= M) names ->
  1 <= start <= stop + 1 -> stop <= ncols r - 1 -> (stop + 1 - start) * B < 2048 ->
  exists t, osl_relation_subexpression r row start stop oppose names = Ok t /\ zlength t <= (stop + 1 - start) * B.
Proof.
  intros W Hrow Hco Hln Hnm Hst Hsp Hb. pose proof W as (Hp & _). pose proof (wf_mat r W) as Mt.
  unfold osl_relation_subexpression.
  destruct (cfor_inv (fun i (s : str * bool) => zlength (fst s) <= (i - start) * B) start (stop + 1)
   (fun i s => let '(line, first) := s in
    v <- mget (rm r) row i ;;
    v <- (if oppose then osl_int_oppose (rprec r) v else Ok v) ;;
    name <- aget names i ;;
    '(t, first) <- osl_relation_expression_element v (rprec r) first (i =? ncols r - 1) name ;;
    (if oppose then osl_int_oppose (rprec r) v else Ok v) ;;;
    line <- buf_store (line ++ t) ;;
    Ok (line, first)) ([], true)) as ([line f] & E & Hl).
  - lia.
  - cbn [fst]. rewrite zlength_nil. lia.
  - intros i [line first] Hi Hl. cbn [fst] in Hl. cbn beta iota.
    rewrite (mget_ok _ _ _ _ _ Mt) by lia. cbn [bind].
    assert (Hv : coef_ok (rprec r) (cell (rm r) row i)).
    { pose proof (mat_row _ _ _ row Mt Hrow ltac:(lia)) as Hlen. pose proof Mt as (_ & _ & _ & Hm). destruct Hm as [Hm _]; [lia|lia|].
      unfold cell. apply (Forall_at (coef_ok (rprec r))); [|lia].
      apply (Forall_at (Forall (coef_ok (rprec r))) [] (rm r) row Hco). lia. }
    destruct Hv as (Hv1 & Hv2 & Hv3).
    assert (Hop : exists v, (if oppose then osl_int_oppose (rprec r) (cell (rm r) row i) else Ok (cell (rm r) row i)) = Ok v /\
       - 10 ^ K < v < 10 ^ K /\ exists v', (if oppose then osl_int_oppose (rprec r) v else Ok v) = Ok v').
    { destruct oppose; [|eexists; split; [reflexivity|]; eauto]. rewrite oppose_total by assumption. eexists. split; [reflexivity|].
      split; [lia|]. rewrite oppose_total; [eauto|assumption|]. now rewrite Z.opp_involutive. }
    destruct Hop as (v & -> & Hv & v' & Ev'). cbn [bind]. rewrite (aget_ok (A:=str) []) by lia. cbn [bind].
    assert (Hnl : zlength (znth [] names i) <= M) by (apply (Forall_at (fun s : str => zlength s <= M)); [assumption|lia]).
    destruct (element_total (rprec r) v first (i =? ncols r - 1) _ Hp Hv Hnl) as (t & f' & Et & Ht).
    match goal with |- context [bind (osl_relation_expression_element ?a ?b ?c ?d ?e) _] => change e with (znth [] names i) end.
    setoid_rewrite Et. cbn [bind]. rewrite Ev'. cbn [bind]. assert (Hlt : zlength (line ++ t) <= (i + 1 - start) * B) by (rewrite zlength_app; lia).
    rewrite buf_store_ok by (unfold B in *; nia). cbn [bind]. eexists. split; [reflexivity|]. cbn [fst]. exact Hlt.
  - exists line. split; [etransitivity; [apply bind_step; exact E|reflexivity]|]. cbn [fst] in Hl. lia.
Qed.

Lemma snp_len t : zlength (snp t) <= zlength t.
Proof. unfold snp, zlength. rewrite firstn_length. lia. Qed.

Lemma comment_total u r row (names : list str) (arrays : strings) : wf_rel cfg r -> 0 <= row < nrows r ->
  Forall (Forall (coef_ok (rprec r))) (rm r) -> 0 <= nout r <= ncols r - 2 ->
  zlength names = ncols r -> Forall (fun s : str => zlength s <= M) names ->
  Forall (fun s : str => zlength s <= M) (elems arrays) -> ncols r * B < 2048 ->
  (osl_relation_is_access r = true -> exists n, osl_relation_get_array_id u = Ok n /\ 1 <= n <= zlength (elems arrays)) ->
  exists c, osl_relation_sprint_comment u r row names arrays = Ok c /\ zlength c <= ncols r * B + M + 10.
Proof.
  intros W Hrow Hco Ho Hln Hnm Harr Hb Hid. pose proof W as (Hp & _). pose proof (wf_mat r W) as Mt.
  unfold osl_relation_sprint_comment. rewrite simple_output_eq by (auto; lia). cbn [bind].
  set (sg := if cell (rm r) row 0 =? 0 then outputs_sign (slice 1 (nout r) (znth [] (rm r) row)) (true, 0) else 0). destruct (sg =? 0); cbn [negb].
  - unfold osl_relation_expression.
    destruct (subexpression_total r row 1 (ncols r - 1) false names W Hrow Hco Hln Hnm ltac:(lia) ltac:(lia) ltac:(unfold B in *; nia))
      as (e & -> & He). cbn [bind].
    rewrite (mget_ok _ _ _ _ _ Mt) by lia. cbn [bind]. rewrite zero_ok by assumption. cbn [bind].
    eexists. split; [reflexivity|]. rewrite zlength_app. pose proof (snp_len (lit "   ## " ++ e)) as Hs.
    rewrite zlength_app in Hs. change (zlength (lit "   ## ")) with 6 in Hs.
    assert (zlength (if cell (rm r) row 0 =? 0 then lit " == 0" else lit " >= 0") = 5) by (destruct (_ =? _); reflexivity).
    unfold B in *; nia.
  - destruct (subexpression_total r row 1 (nout r) (sg <? 0) names W Hrow Hco Hln Hnm ltac:(lia) ltac:(lia) ltac:(unfold B in *; nia))
      as (e & -> & He). cbn [bind].
    rewrite (mget_ok _ _ _ _ _ Mt) by lia. cbn [bind]. rewrite zero_ok by assumption. cbn [bind].
    pose proof (snp_len (lit "   ## " ++ e)) as Hs. rewrite zlength_app in Hs. change (zlength (lit "   ## ")) with 6 in Hs.
    destruct (negb (osl_relation_is_access r) || _) eqn:Ea.
    + destruct (subexpression_total r row (nout r + 1) (ncols r - 1) (0 <? sg) names W Hrow Hco Hln Hnm ltac:(lia) ltac:(lia) ltac:(unfold B in *; nia))
        as (e2 & -> & He2). cbn [bind]. eexists. split; [reflexivity|]. rewrite zlength_app.
      pose proof (snp_len (lit " == " ++ e2)) as Hs2. rewrite zlength_app in Hs2. change (zlength (lit " == ")) with 4 in Hs2.
      unfold B in *; nia.
    + apply orb_false_iff in Ea as [Ea _]. apply negb_false_iff in Ea. destruct (Hid Ea) as (n & -> & Hn). cbn [bind].
      rewrite (aget_ok (A:=str) []) by lia. cbn [bind]. eexists. split; [reflexivity|]. rewrite zlength_app.
      set (a := znth (A:=str) [] (elems arrays) (n - 1)).
      assert (Hal : zlength a <= M) by (apply (Forall_at (fun s : str => zlength s <= M)); [assumption|lia]).
      pose proof (snp_len (lit " == " ++ a)) as Hs2. rewrite zlength_app in Hs2. change (zlength (lit " == ")) with 4 in Hs2.
      unfold B in *; nia.
Qed.

Lemma pad4_length t : zlength (pad4 t) <= zlength t + 3 \/ zlength (pad4 t) = 4.
Proof. unfold pad4, zlength. rewrite app_length, repeat_length. lia. Qed.

Lemma cells_total r i : wf_rel cfg r -> 0 <= i < nrows r -> Forall (Forall (coef_ok (rprec r))) (rm r) ->
  exists t, print_cells r i = Ok t /\ zlength t <= ncols r * (K + 5) /\ no_nl t.
Proof.
  intros W Hi Hco. pose proof W as (Hp & HR & HC & _). pose proof (wf_mat r W) as Mt. unfold print_cells.
  destruct (cfor_inv (fun j s => zlength s <= j * (K + 5) /\ no_nl s) 0 (ncols r) (fun j s =>
    x <- mget (rm r) i j ;; t <- osl_int_sprint (rprec r) x ;; t <- buf_store t ;;
    Ok (s ++ t ++ [c_sp])) []) as (t & E & Hl).
  - lia.
  - rewrite zlength_nil. split; [lia|apply no_nl_nil].
  - intros j s Hj [Hs Hns]. rewrite (mget_ok _ _ _ _ _ Mt) by lia. cbn [bind].
    assert (Hv : coef_ok (rprec r) (cell (rm r) i j)).
    { pose proof (mat_row _ _ _ i Mt Hi ltac:(lia)) as Hlen. pose proof Mt as (_ & _ & _ & Hm). destruct Hm as [Hm _]; [lia|lia|].
      unfold cell. apply (Forall_at (coef_ok (rprec r))); [|lia].
      apply (Forall_at (Forall (coef_ok (rprec r))) [] (rm r) i Hco). lia. }
    destruct Hv as (Hv1 & _).
    assert (E : osl_int_sprint (rprec r) (cell (rm r) i j) = Ok (pad4 (print_Z (cell (rm r) i j)))).
    { unfold osl_int_sprint, pswitch. destruct (supported_cases _ Hp) as [[-> _]|[-> [-> _]]]; reflexivity. }
    rewrite E. cbn [bind]. pose proof (print_length _ Hv1) as Hpl. pose proof (pad4_length (print_Z (cell (rm r) i j))) as Hp4.
    rewrite buf_store_ok by (unfold B in HB; lia). cbn [bind]. eexists. split; [reflexivity|].
    split; [rewrite !zlength_app, zlength_one; lia|]. apply no_nl_app. split; [assumption|].
    apply no_nl_app. split; [|apply no_nl_lit; reflexivity]. unfold pad4. apply no_nl_app. split; [|apply print_Z_no_nl].
    intros Hin. apply repeat_spec in Hin. discriminate.
  - exists t. tauto.
Qed.

Lemma rows_total u r (names : list str) (arrays : strings) : wf_rel cfg r ->
  Forall (Forall (coef_ok (rprec r))) (rm r) -> 0 <= nout r <= ncols r - 2 ->
  zlength names = ncols r -> Forall (fun s : str => zlength s <= M) names -> Forall no_nl names ->
  Forall (fun s : str => zlength s <= M) (elems arrays) -> Forall no_nl (elems arrays) ->
  ncols r * (2 * K + M + 8) + M + 10 <= 2046 ->
  (osl_relation_is_access r = true -> exists n, osl_relation_get_array_id u = Ok n /\ 1 <= n <= zlength (elems arrays)) ->
  exists t, print_rows u r names arrays = Ok t /\ lines t.
Proof.
  intros W Hco Ho Hln Hnm Hnl Harr Harn Hb Hid. pose proof W as (_ & HR & _). unfold print_rows.
  apply cfor_inv with (I := fun _ t => lines t); [lia|constructor|].
  intros i s Hi Hs. destruct (cells_total r i W Hi Hco) as (t & -> & Ht & Htn). cbn [bind].
  destruct (comment_total u r i names arrays W Hi Hco Ho Hln Hnm Harr ltac:(unfold B; nia) Hid) as (c & Ec & Hc).
  destruct (sprint_comment_shape u r i names arrays c Hnl Harn Ec) as (w & Ew & Hw).
  rewrite Ec. cbn [bind]. eexists. split; [reflexivity|]. apply lines_app; [assumption|].
  rewrite app_assoc. apply lines_one.
  - apply no_nl_app. split; [assumption|]. subst c. apply no_nl_app. split; [apply no_nl_lit; reflexivity|assumption].
  - rewrite zlength_app. unfold B in Hc. nia.
Qed.

Lemma column_field_length (s : str) : zlength (column_field s) = 5 \/ zlength (column_field s) = 4.
Proof.
  unfold column_field. change FMT_LENGTH with 4. pose proof (zlength_nonneg s).
  rewrite !zlength_app, !zlength_repeat.
  assert (X : zlength (if zlength s <=? (if zlength s <? 4 then zlength s else 4) then s else firstn 3 s ++ lit ".") =
    if zlength s <? 4 then zlength s else 4).
  { destruct (Z.ltb_spec (zlength s) 4).
    - rewrite Z.leb_refl. reflexivity.
    - destruct (Z.leb_spec (zlength s) 4); [lia|]. rewrite zlength_app. change 3%nat with (Z.to_nat 3).
      rewrite zlength_firstn by lia. change (zlength (lit ".")) with 1. lia. }
  rewrite X. right. set (L := if zlength s <? 4 then zlength s else 4). assert (0 <= L <= 4) by (unfold L; destruct (Z.ltb_spec (zlength s) 4); lia).
  pose proof (Z.div_mod (4 - L) 2 ltac:(lia)). pose proof (Z.mod_pos_bound (4 - L) 2 ltac:(lia)). lia.
Qed.
Lemma column_fields_length r (names : list str) : forall i, zlength (column_fields r i names) <= 6 * zlength names.
Proof.
  induction names as [|s names IH]; intros i; [cbn; lia|].
  cbn [column_fields]. rewrite !zlength_app, zlength_cons. specialize (IH (i + 1)).
  pose proof (column_field_length s). match goal with |- context [zlength (if ?b then _ else _)] => assert (zlength (if b then lit "|" else lit " ") = 1) by (destruct b; reflexivity) end. lia.
Qed.

Lemma column_total r (names : list str) : Forall no_nl names -> 6 * zlength names + 2 <= 2046 ->
  exists t, osl_relation_column_string r names = Ok t /\ lines t /\ zlength t <= 2046.
Proof.
  intros Hn Hl. pose proof (column_fields_length r names 0) as Hc. unfold osl_relation_column_string.
  rewrite buf_store_ok. 2:{ rewrite !zlength_app, zlength_one. change (zlength (lit "#")) with 1. lia. }
  eexists. split; [reflexivity|]. split.
  - rewrite app_assoc. apply lines_one; [|rewrite zlength_app; change (zlength (lit "#")) with 1; lia].
    apply no_nl_app. split; [apply no_nl_lit; reflexivity|]. now apply column_fields_no_nl.
  - rewrite !zlength_app, zlength_one. change (zlength (lit "#")) with 1. lia.
Qed.

Lemma nb_length u : osl_relation_nb_components u = zlength u.
Proof. induction u as [|r u IH]; [reflexivity|]. cbn [osl_relation_nb_components]. rewrite zlength_cons. lia. Qed.
Lemma print_int_length v : c_int v -> zlength (print_Z v) <= 11.
Proof. intros H. apply int_length in H. unfold zlength. lia. Qed.
Lemma dims_total r : int_dims r -> snp (print_dims r) = print_dims r /\ lines (print_dims r).
Proof.
  intros (H1 & H2 & H3 & H4 & H5 & H6). unfold print_dims.
  pose proof (print_int_length _ H1). pose proof (print_int_length _ H2). pose proof (print_int_length _ H3).
  pose proof (print_int_length _ H4). pose proof (print_int_length _ H5). pose proof (print_int_length _ H6).
  split.
  - unfold snp. apply firstn_all2. rewrite !app_length. unfold zlength in *. cbn [length]. lia.
  - repeat rewrite (app_assoc (print_Z _)). repeat rewrite app_assoc. apply lines_one.
    + nonl.
    + rewrite !zlength_app. change (zlength [c_sp]) with 1. lia.
Qed.

(** What one part needs to be printed. *)
Definition part_ready (u : list relation) (r : relation) (n : names) : Prop :=
  wf_rel cfg r /\ int_dims r /\ Forall (Forall (coef_ok (rprec r))) (rm r) /\ coherent_dims r /\ enough_names r n /\
  ncols r * (2 * K + M + 8) + M + 10 <= 2046 /\
  (osl_relation_is_access r = true -> exists id, osl_relation_get_array_id u = Ok id /\ 1 <= id <= zlength (elems (n_arrays n))).

Lemma firstn_Forall {A} (P : A -> Prop) k l : Forall P l -> Forall P (firstn k l).
Proof. intros H. rewrite <- (firstn_skipn k l) in H. now apply Forall_app in H as [? _]. Qed.

Lemma column_names_short r n : coherent_dims r -> short_names M n -> ncols r < 2048 -> 6 <= M -> enough_names r n ->
  Forall (fun s : str => zlength s <= M) (column_names r n) /\ zlength (column_names r n) = ncols r.
Proof.
  intros (Ho & Hi & Hl & Hp & Hc & Hctx & Hdom & Hacc) Hs Hn HM6 (E1 & E2 & E3 & E4 & E5).
  unfold short_names in Hs. rewrite !Forall_app in Hs. destruct Hs as (S1 & S2 & S3 & S4 & S5).
  assert (Hout : Forall (fun s : str => zlength s <= M) (output_names r n) /\ zlength (output_names r n) = nout r).
  { unfold output_names. change ((rtype r =? TYPE_ACCESS) || (rtype r =? TYPE_READ) || (rtype r =? TYPE_WRITE) || (rtype r =? TYPE_MAY_WRITE))
      with (osl_relation_is_access r). pose proof (is_access_spec r) as Ha. destruct (osl_relation_is_access r).
    - specialize (Hacc (proj1 Ha eq_refl)). split.
      + constructor; [change (zlength (lit "Arr")) with 3; lia|].
        apply (Forall_znth _ ([] : str)). intros j Hj. rewrite brackets_length in Hj. rewrite brackets_nth by lia.
        rewrite !zlength_app. change (zlength (lit "[")) with 1. change (zlength (lit "]")) with 1.
        pose proof (print_Z_length (1 + j) 4 ltac:(lia) ltac:(change (10 ^ Z.of_nat 4) with 10000; lia)) as X.
        assert (X4 : zlength (print_Z (1 + j)) <= 4); [|lia].
        unfold print_Z, print_nat_Z in *. destruct (Z.ltb_spec (1 + j) 0); [lia|].
        pose proof (digits_loop_length (S (Z.to_nat (Z.log2 (1 + j)))) (1 + j) 4 ltac:(lia) ltac:(change (10 ^ Z.of_nat 4) with 10000; lia)).
        unfold zlength. lia.
      + rewrite zlength_cons, brackets_length. lia.
    - assert (Hna : ~ access_type (rtype r)) by (intros X; apply Ha in X; discriminate).
      destruct ((rtype r =? TYPE_DOMAIN) || (rtype r =? TYPE_CONTEXT)) eqn:Et.
      + assert (nout r <= zlength (elems (n_iters n))) by (apply E1; lia).
        split; [now apply firstn_Forall|]. rewrite zlength_firstn; lia.
      + assert (nout r <= zlength (elems (n_scatt n))) by (apply E2; [assumption|lia|lia]).
        split; [now apply firstn_Forall|]. rewrite zlength_firstn; lia. }
  destruct Hout as [Hout Hlen]. unfold column_names. split.
  - constructor; [change (zlength (lit "e/i")) with 3; lia|]. repeat (apply Forall_app; split); auto using firstn_Forall.
    constructor; [change (zlength (lit "1")) with 1; lia|constructor].
  - rewrite zlength_cons, !zlength_app, !zlength_firstn by lia. rewrite Hlen. change (zlength [lit "1"]) with 1. lia.
Qed.

Hypothesis HM6 : 6 <= M.
Lemma part_total nb u r part n : part_ready u r n -> short_names M n -> one_line_names (Some n) -> c_int part ->
  exists t, print_part nb u r part n = Ok t /\ lines t.
Proof.
  intros (W & Hd & Hco & Hdim & Hen & Hw & Hid) Hs Hone Hpart.
  assert (Hnc : ncols r < 2048) by (pose proof W as (_ & _ & HC & _); nia).
  pose proof W as (_ & HR & HC & _).
  destruct (column_names_short r n Hdim Hs Hnc HM6 Hen) as [Hsn Hln].
  unfold print_part. pose proof (C43_names r n Hdim Hen) as En. pose proof (relation_strings_no_nl r n _ Hone En) as Hnl.
  rewrite En. cbn [bind].
  destruct (column_total r (column_names r n) Hnl) as (col & Ecol & Hcol & Hcl); [rewrite Hln; nia|].
  assert (Hcol' : exists c, (if 0 <? nrows r then c <- osl_relation_column_string r (column_names r n) ;; Ok (snp c) else Ok []) = Ok c /\ lines c).
  { destruct (0 <? nrows r); [|exists []; split; [reflexivity|constructor]]. rewrite Ecol. cbn [bind].
    eexists. split; [reflexivity|]. unfold snp. rewrite firstn_all2; [assumption|]. unfold zlength in Hcl. lia. }
  destruct Hcol' as (c & -> & Hc). cbn [bind].
  unfold short_names in Hs. rewrite !Forall_app in Hs. destruct Hs as (_ & _ & _ & _ & S5).
  destruct Hone as (_ & _ & _ & _ & N5).
  destruct Hdim as (Ho & Hi & Hl & Hp & Hc' & _).
  destruct (rows_total u r (column_names r n) (n_arrays n) W Hco ltac:(lia) Hln Hsn Hnl S5 N5 Hw Hid) as (t & -> & Ht). cbn [bind].
  eexists. split; [reflexivity|]. destruct (dims_total r Hd) as [-> Hdl].
  apply lines_app; [|apply lines_app; [assumption|apply lines_app; assumption]]. destruct (1 <? nb); [|constructor].
  rewrite app_assoc. apply lines_one.
  - nonl.
  - rewrite zlength_app. change (zlength (lit "# Union part No.")) with 16. pose proof (print_int_length _ Hpart). lia.
Qed.

Lemma parts_total nb n : short_names M n -> one_line_names (Some n) -> forall u part,
  (forall pre r post, u = pre ++ r :: post -> part_ready (r :: post) r n) ->
  0 <= part -> part + zlength u <= 2 ^ 31 - 1 ->
  exists t, print_parts nb u part n = Ok t /\ lines t.
Proof.
  intros Hs Hone. induction u as [|r u IH]; intros part Hr H0 Hl; cbn [print_parts].
  - eexists. split; [reflexivity|constructor].
  - rewrite zlength_cons in Hl. pose proof (zlength_nonneg u).
    destruct (part_total nb (r :: u) r part n (Hr [] r u eq_refl) Hs Hone ltac:(unfold c_int; lia)) as (a & -> & Ha). cbn [bind].
    destruct (IH (part + 1)) as (b & -> & Hb); [|lia|lia|].
    { intros pre r' post ->. apply (Hr (r :: pre) r' post). reflexivity. }
    cbn [bind]. eexists. split; [reflexivity|]. now apply lines_app.
Qed.

Lemma polylib_total u n : u <> [] -> short_names M n -> one_line_names (Some n) ->
  (forall pre r post, u = pre ++ r :: post -> part_ready (r :: post) r n) -> zlength u < 2 ^ 31 - 1 ->
  exists t, osl_relation_spprint_polylib u (Some n) = Ok t /\ lines t.
Proof.
  intros Hne Hs Hone Hr Hl. destruct u as [|r u]; [congruence|]. unfold osl_relation_spprint_polylib. cbn [bind].
  destruct (parts_total (osl_relation_nb_components (r :: u)) n Hs Hone (r :: u) 1 Hr ltac:(lia) ltac:(lia)) as (t & -> & Ht).
  cbn [bind]. eexists. split; [reflexivity|]. apply lines_app; [|assumption].
  destruct (1 <? _); [|constructor].
  assert (Hnb : c_int (osl_relation_nb_components (r :: u))).
  { rewrite nb_length. unfold c_int. pose proof (zlength_nonneg (r :: u)). lia. }
  pose proof (print_int_length _ Hnb) as Hp.
  set (nb := osl_relation_nb_components (r :: u)) in *.
  replace (lit "# Union with " ++ print_Z nb ++ lit " parts" ++ [c_nl] ++ print_Z nb ++ [c_nl])
    with ((lit "# Union with " ++ print_Z nb ++ lit " parts") ++ c_nl :: (print_Z nb ++ [c_nl]))
    by (rewrite <- !app_assoc; reflexivity).
  apply lines_cons.
  - nonl.
  - rewrite !zlength_app. change (zlength (lit "# Union with ")) with 13. change (zlength (lit " parts")) with 6. lia.
  - apply lines_one; [nonl|lia].
Qed.

Lemma type_line t : lines (type_string t ++ [c_nl]).
Proof.
  apply lines_one; unfold type_string; repeat match goal with |- context [if ?b then _ else _] => destruct b end;
    try (vm_compute; discriminate); apply no_nl_lit; reflexivity.
Qed.

Lemma spprint_total u n : u <> [] -> short_names M n -> one_line_names (Some n) ->
  (forall pre r post, u = pre ++ r :: post -> part_ready (r :: post) r n) -> zlength u < 2 ^ 31 - 1 ->
  exists t, osl_relation_spprint u (Some n) = Ok t /\ lines t.
Proof.
  intros Hne Hs Hone Hr Hl. unfold osl_relation_spprint.
  destruct (polylib_total u n Hne Hs Hone Hr Hl) as (t & -> & Ht).
  replace (0 <? osl_relation_nb_components u) with true.
  2:{ rewrite nb_length. destruct u; [congruence|]. rewrite zlength_cons. pose proof (zlength_nonneg u). lia. }
  cbn [bind]. eexists. split; [reflexivity|]. rewrite app_assoc. apply lines_app; [|assumption].
  destruct u as [|r u]; [congruence|]. apply type_line.
Qed.
End P.

(** ** The theorems *)

(** Every union of coherent relations whose coefficients have at most [k] digits, with names of at most [m] characters
    for all columns and arrays, and few enough columns for the line buffer, can be printed, in lines that the reader
    accepts. *)
Definition printable (cfg : config) (k m : Z) (r : relation) : Prop :=
  wf_rel cfg r /\ coherent_dims r /\ short_coefficients cfg k r /\
  nrows r <= 2 ^ 31 - 1 /\ ncols r * (2 * k + m + 8) + m + 10 <= 2046.

Lemma printable_coefs cfg k m r : printable cfg k m r -> Forall (Forall (@coef_ok cfg k (rprec r))) (rm r).
Proof.
  intros (W & _ & Hs & _). destruct W as (_ & _ & _ & _ & _ & Hrep). unfold short_coefficients in Hs.
  rewrite Forall_forall in *. intros row Hin. specialize (Hs row Hin). specialize (Hrep row Hin).
  rewrite Forall_forall in *. intros v Hv. specialize (Hs v Hv). specialize (Hrep v Hv). unfold coef_ok. tauto.
Qed.
Lemma printable_dims cfg k m r : 1 <= k -> 6 <= m -> printable cfg k m r -> int_dims r.
Proof.
  intros Hk Hm (W & (Ho & Hi & Hl & Hp & Hc & _) & _ & Hr & Hw). pose proof W as (_ & HR & HC & _).
  assert (ncols r < 2048) by nia. unfold int_dims, c_int. repeat split; lia.
Qed.

Lemma access_id cfg u last : config_ok cfg -> wf_union cfg u -> arrays_known u last ->
  (forall r r', In r u -> In r' u -> access_type (rtype r) -> access_type (rtype r')) ->
  forall pre r post, u = pre ++ r :: post -> osl_relation_is_access r = true ->
  exists id, osl_relation_get_array_id (r :: post) = Ok id /\ 1 <= id <= last.
Proof.
  intros Hcfg W Ha Hall pre r post -> Hacc. apply is_access_spec in Hacc.
  assert (Hf : Forall (fun r => access_type (rtype r)) (pre ++ r :: post)).
  { apply Forall_forall. intros r' Hin. apply (Hall r r'); auto. apply in_or_app. right. now left. }
  destruct (Ha Hf) as (n & Hn & Hfix & Hsmall).
  apply Forall_app in Hfix as [_ Hfix]. apply Forall_app in Hsmall as [_ Hsmall]. apply Forall_app in W as [_ W].
  exists n. split.
  - apply get_array_id_complete; auto.
  - pose proof (Forall_inv Hfix) as (H0 & _). lia.
Qed.

Theorem C20_prints : forall (cfg : config) k m u n, config_ok cfg ->
  1 <= k -> 6 <= m -> u <> [] -> zlength u < 2 ^ 31 - 1 ->
  Forall (printable cfg k m) u -> Forall (fun r => enough_names r n) u ->
  short_names m n -> one_line_names (Some n) ->
  (forall r r', In r u -> In r' u -> access_type (rtype r) -> access_type (rtype r')) ->
  arrays_known u (zlength (elems (n_arrays n))) ->
  exists text, osl_relation_spprint u (Some n) = Ok text /\ short_lines text.
Proof.
  intros cfg k m u n Hcfg Hk Hm Hne Hlen Hu Hen Hs Hone Hall Harr.
  assert (W : wf_union cfg u) by (eapply Forall_impl; [|exact Hu]; intros r (W & _); exact W).
  assert (HB : k + m + 3 < 2048).
  { destruct u as [|r u]; [congruence|]. apply Forall_inv in Hu. destruct Hu as (W' & (Ho & Hi & Hl & Hp & Hc & _) & _ & _ & Hw). nia. }
  destruct (spprint_total Hcfg k m ltac:(lia) ltac:(lia) HB ltac:(lia) u n Hne Hs Hone) as (t & Et & Ht); [|assumption|].
  - intros pre r post E. assert (Hin : In r u) by (subst u; apply in_or_app; right; now left).
    rewrite Forall_forall in Hu, Hen. specialize (Hu r Hin). specialize (Hen r Hin).
    split; [apply Hu|]. split; [now apply (printable_dims cfg k m)|]. split; [now apply (printable_coefs cfg k m)|].
    split; [apply Hu|]. split; [assumption|]. split; [apply Hu|].
    intros Hacc. eapply access_id; eauto.
  - exists t. split; [assumption|]. now apply lines_short.
Qed.
Print Assumptions C20_prints.

(** ** Generated names *)
Lemma generated cfg u a k m : Forall (printable cfg k m) u -> osl_relation_get_attributes u (mkattrs UNDEFINED UNDEFINED UNDEFINED UNDEFINED UNDEFINED) = Ok a ->
  forall r, In r u -> npar r <= a_par a /\ nloc r <= a_loc a /\
    (access_type (rtype r) \/ (rtype r <> TYPE_DOMAIN /\ rtype r <> TYPE_CONTEXT) -> nin r <= a_iter a) /\
    (rtype r = TYPE_DOMAIN -> nout r <= a_iter a) /\
    (~ access_type (rtype r) -> rtype r <> TYPE_DOMAIN -> rtype r <> TYPE_CONTEXT -> nout r <= a_scat a) /\
    0 <= a_iter a /\ 0 <= a_scat a /\ (~ access_type (rtype r) -> 0 <= a_id a).
Proof.
  intros Hp Ha r Hin. apply in_split in Hin as (pre & post & E).
  assert (Hr : printable cfg k m r) by (rewrite Forall_forall in Hp; apply Hp; rewrite E; apply in_or_app; right; now left).
  destruct Hr as (_ & (Ho & Hi & Hl & Hpp & _ & Hctx & Hdom & _) & _).
  assert (X : forall w, exists id, attribute_of w r id <= attribute_in w a /\
     (access_type (rtype r) -> osl_relation_get_array_id (r :: post) = Ok id)).
  { intros w. destruct (C19_relation_attributes cfg u _ a w Ha) as (_ & X & _). destruct (X pre r post E) as (id & ? & ?). eauto. }
  destruct (X Parameters) as (? & X1 & _). destruct (X Iterators) as (? & X2 & _). destruct (X Scattdims) as (? & X3 & _).
  destruct (X Localdims) as (? & X4 & _). destruct (X ArrayId) as (? & X5 & _).
  cbn [attribute_of attribute_in] in *. unfold access_type in *.
  destruct (Z.eqb_spec (rtype r) TYPE_CONTEXT) as [Ec|Ec]; destruct (Z.eqb_spec (rtype r) TYPE_DOMAIN) as [Ed|Ed];
    destruct (Z.eqb_spec (rtype r) TYPE_ACCESS); destruct (Z.eqb_spec (rtype r) TYPE_READ);
    destruct (Z.eqb_spec (rtype r) TYPE_WRITE); destruct (Z.eqb_spec (rtype r) TYPE_MAY_WRITE); cbn [orb] in *;
    rewrite ?Ec, ?Ed in *; try discriminate; repeat split; intros; try lia; tauto.
Qed.

Lemma attributes_total cfg t last : config_ok cfg -> forall u a, wf_union cfg u -> Forall (fun r => rtype r = t) u -> arrays_known u last ->
  exists a', @osl_relation_get_attributes cfg u a = Ok a'.
Proof.
  intros Hcfg u a W Ht Ha.
  assert (Hall : forall r r', In r u -> In r' u -> access_type (rtype r) -> access_type (rtype r')).
  { rewrite Forall_forall in Ht. intros r r' H1 H2. rewrite (Ht r H1), (Ht r' H2). auto. }
  pose proof (access_id cfg u last Hcfg W Ha Hall) as Hid. clear Ha Hall.
  revert a. induction u as [|r u IH]; intros a; [eexists; reflexivity|]. cbn [osl_relation_get_attributes].
  assert (Hl : exists l, local_attrs (r :: u) r = Ok l).
  { unfold local_attrs. destruct (osl_relation_is_access r) eqn:Ea.
    - destruct (Hid [] r u eq_refl Ea) as (id & -> & _). cbn [bind]. eauto.
    - destruct (_ =? _); [eauto|]. destruct (_ =? _); eauto. }
  destruct Hl as (l & ->). cbn [bind]. apply IH.
  - now apply Forall_inv_tail in W.
  - now apply Forall_inv_tail in Ht.
  - intros pre r' post E. apply (Hid (r :: pre) r' post). now rewrite E.
Qed.

Lemma generate_short prefix v s : zlength prefix = 1 -> no_nl prefix -> v <= 2 ^ 31 - 1 -> osl_strings_generate prefix v = Ok s ->
  zlength (elems s) = v /\ Forall (fun s : str => zlength s <= 12) (elems s).
Proof.
  intros Hp Hn Hv H. destruct (Z.ltb_spec v 0) as [Hneg|Hpos].
  { unfold osl_strings_generate in H. destruct (Z.eqb_spec v 0); [lia|]. destruct (Z.ltb_spec v 0); [discriminate|lia]. }
  destruct (C29_generate prefix v Hpos) as (s' & E & Hsz & Hnth & _). rewrite H in E. apply Ok_inj in E. subst s'.
  assert (Hl : zlength (elems s) = v).
  { unfold osl_strings_size in Hsz. destruct s as [l|]; cbn [elems] in *; exact Hsz. }
  split; [assumption|]. apply Forall_forall. intros x Hx. apply In_nth_error in Hx as (j & Hj).
  assert (Hjl : Z.of_nat j < v). { assert (j < length (elems s))%nat by (apply nth_error_Some; congruence). unfold zlength in Hl. lia. }
  specialize (Hnth (Z.of_nat j + 1) ltac:(lia)). replace (Z.to_nat (Z.of_nat j + 1 - 1)) with j in Hnth by lia.
  rewrite Hj in Hnth. assert (x = prefix ++ print_Z (Z.of_nat j + 1)) by congruence. subst x.
  rewrite zlength_app. pose proof (print_int_length (Z.of_nat j + 1)) as X. unfold c_int in X. specialize (X ltac:(lia)). lia.
Qed.

Lemma names_total cfg k m t u : config_ok cfg -> u <> [] -> 1 <= k -> 6 <= m -> Forall (printable cfg k m) u ->
  Forall (fun r => rtype r = t) u -> arrays_known u (2 ^ 31 - 1) ->
  exists n, @osl_relation_names cfg u = Ok n /\ Forall (fun r => enough_names r n) u /\ short_names 12 n /\
    arrays_known u (zlength (elems (n_arrays n))).
Proof.
  intros Hcfg Hne Hk Hm Hp Ht Ha.
  assert (W : wf_union cfg u) by (eapply Forall_impl; [|exact Hp]; intros r (W & _); exact W).
  destruct (attributes_total cfg t _ Hcfg u (mkattrs UNDEFINED UNDEFINED UNDEFINED UNDEFINED UNDEFINED) W Ht Ha) as (a & Ea).
  pose proof (generated cfg u a k m Hp Ea) as Hg.
  assert (Hall : forall r r', In r u -> In r' u -> access_type (rtype r) -> access_type (rtype r')).
  { rewrite Forall_forall in Ht. intros r r' H1 H2. rewrite (Ht r H1), (Ht r' H2). auto. }
  pose proof (access_id cfg u _ Hcfg W Ha Hall) as Hid.
  assert (Hmax : forall w, attribute_in w a <= 2 ^ 31 - 1).
  { intros w. destruct (C19_relation_attributes cfg u _ a w Ea) as (_ & _ & [X|(pre & r & post & id & E & Hi & X)]).
    - rewrite X. destruct w; cbn; unfold UNDEFINED; lia.
    - rewrite X. assert (Hin : In r u) by (rewrite E; apply in_or_app; right; now left).
      rewrite Forall_forall in Hp. pose proof (Hp r Hin) as Hr. pose proof (printable_dims cfg k m r Hk Hm Hr) as (_ & _ & D3 & D4 & D5 & D6).
      unfold c_int in *. destruct w; cbn [attribute_of]; repeat match goal with |- context [if ?b then _ else _] => destruct b eqn:? end; try lia.
      assert (Hacc : osl_relation_is_access r = true) by (unfold osl_relation_is_access; assumption).
      destruct (Hid pre r post E Hacc) as (id' & E' & Hb). rewrite (Hi (proj1 (is_access_spec r) Hacc)) in E'. apply Ok_inj in E'. lia. }
  destruct u as [|r0 u']; [congruence|]. set (u := r0 :: u') in *.
  destruct (Hg r0 (or_introl eq_refl)) as (G1 & G2 & _ & _ & _ & G3 & G4 & G5).
  assert (Hr0 : printable cfg k m r0) by (now apply Forall_inv in Hp). destruct Hr0 as (_ & (Ho & Hi & Hl & Hpp & _) & _).
  assert (Hida : 0 <= a_id a).
  { destruct (osl_relation_is_access r0) eqn:Eacc.
    - destruct (C19_relation_attributes cfg u _ a ArrayId Ea) as (_ & X & _). destruct (X [] r0 u' eq_refl) as (id & X1 & X2).
      destruct (Hid [] r0 u' eq_refl Eacc) as (id' & E' & Hb). rewrite (X1 (proj1 (is_access_spec r0) Eacc)) in E'. apply Ok_inj in E'. subst id'.
      cbn [attribute_of attribute_in] in X2. unfold osl_relation_is_access in Eacc. rewrite Eacc in X2. lia.
    - apply G5. intros X. apply is_access_spec in X. congruence. }
  assert (Hgen : forall pfx v, 0 <= v -> exists s, osl_strings_generate pfx v = Ok s).
  { intros pfx v Hv. destruct (C29_generate pfx v Hv) as (s & E & _). eauto. }
  destruct (Hgen (lit "P") (a_par a) ltac:(lia)) as (sp & Esp). destruct (Hgen (lit "i") (a_iter a) ltac:(lia)) as (si & Esi).
  destruct (Hgen (lit "c") (a_scat a) ltac:(lia)) as (sc & Esc). destruct (Hgen (lit "l") (a_loc a) ltac:(lia)) as (sl & Esl).
  destruct (Hgen (lit "A") (a_id a) ltac:(lia)) as (sa & Esa).
  exists (Names sp si sc sl sa). split.
  { unfold osl_relation_names. rewrite Ea. cbn [bind]. unfold osl_names_generate. now rewrite Esp, Esi, Esc, Esl, Esa. }
  assert (Hs1 : forall c : ascii, ceqb c c_nl = false -> no_nl [c]) by (intros c Hc; apply no_nl_cons; [assumption|apply no_nl_nil]).
  destruct (generate_short (lit "P") _ _ eq_refl (Hs1 "P"%char eq_refl) (Hmax Parameters) Esp) as [L1 F1].
  destruct (generate_short (lit "i") _ _ eq_refl (Hs1 "i"%char eq_refl) (Hmax Iterators) Esi) as [L2 F2].
  destruct (generate_short (lit "c") _ _ eq_refl (Hs1 "c"%char eq_refl) (Hmax Scattdims) Esc) as [L3 F3].
  destruct (generate_short (lit "l") _ _ eq_refl (Hs1 "l"%char eq_refl) (Hmax Localdims) Esl) as [L4 F4].
  destruct (generate_short (lit "A") _ _ eq_refl (Hs1 "A"%char eq_refl) (Hmax ArrayId) Esa) as [L5 F5].
  split; [|split].
  - apply Forall_forall. intros r Hin. destruct (Hg r Hin) as (H1 & H2 & H3 & H4 & H5 & H6 & H7 & _).
    assert (Hr : printable cfg k m r) by (rewrite Forall_forall in Hp; auto). destruct Hr as (_ & (Ho' & Hi' & Hl' & Hpp' & _ & Hctx & Hdom & _) & _).
    unfold enough_names. cbn [n_params n_iters n_scatt n_locals]. rewrite L1, L2, L3, L4.
    cbn [attribute_in] in *. repeat split; try assumption.
    + intros [E|E]; [auto|]. rewrite (Hctx E). lia.
    + destruct (Z.eq_dec (rtype r) TYPE_DOMAIN) as [E|E]; [rewrite Hdom by auto; lia|].
      destruct (Z.eq_dec (rtype r) TYPE_CONTEXT) as [E'|E']; [rewrite Hdom by auto; lia|]. apply H3. auto.
  - unfold short_names. cbn [n_params n_iters n_scatt n_locals n_arrays]. repeat (apply Forall_app; split); assumption.
  - cbn [n_arrays]. rewrite L5. intros Hf. destruct (Ha Hf) as (n & Hn & Hfix & Hsm). exists n. split; [|auto].
    destruct (C19_relation_attributes cfg u _ a ArrayId Ea) as (_ & X & _). destruct (X [] r0 u' eq_refl) as (id & X1 & X2).
    pose proof (Forall_inv Hf) as Hacc.
    assert (E : osl_relation_get_array_id (r0 :: u') = Ok n) by (apply get_array_id_complete; auto).
    rewrite (X1 Hacc) in E. apply Ok_inj in E. subst id.
    cbn [attribute_of attribute_in] in X2. apply is_access_spec in Hacc. unfold osl_relation_is_access in Hacc. rewrite Hacc in X2. exact X2.
Qed.

(** osl_relation_sprint (generated names) always succeeds on coherent unions with few enough columns ... *)
Theorem C20_sprints : forall (cfg : config) k t u, config_ok cfg ->
  1 <= k -> u <> [] -> zlength u < 2 ^ 31 - 1 ->
  Forall (printable cfg k 12) u -> Forall (fun r => rtype r = t) u -> arrays_known u (2 ^ 31 - 1) ->
  exists text, osl_relation_sprint u = Ok text /\ short_lines text.
Proof.
  intros cfg k t u Hcfg Hk Hne Hlen Hp Ht Ha.
  destruct (names_total cfg k 12 t u Hcfg Hne Hk ltac:(lia) Hp Ht Ha) as (n & En & Hen & Hs & Harr).
  assert (Hall : forall r r', In r u -> In r' u -> access_type (rtype r) -> access_type (rtype r')).
  { rewrite Forall_forall in Ht. intros r r' H1 H2. rewrite (Ht r H1), (Ht r' H2). auto. }
  destruct (C20_prints cfg k 12 u n Hcfg Hk ltac:(lia) Hne Hlen Hp Hen Hs (relation_names_good u n En) Hall Harr) as (text & Et & Hsh).
  exists text. split; [|assumption]. rewrite <- Et. unfold osl_relation_sprint, osl_relation_spprint, osl_relation_spprint_polylib.
  destruct u; [congruence|]. destruct (0 <? _); [|reflexivity]. now rewrite En.
Qed.
Print Assumptions C20_sprints.

(** ... and the text reads back as the same union: no hypothesis on the text is left. *)
Theorem C20_total_roundtrip : forall (cfg : config) env k t u rest e, config_ok cfg ->
  1 <= k -> u <> [] -> zlength u < 2 ^ 31 - 1 -> printable_type t ->
  Forall (printable cfg k 12) u -> Forall (fun r => rtype r = t /\ rprec r = osl_util_get_precision env) u ->
  arrays_known u (2 ^ 31 - 1) ->
  exists text, osl_relation_sprint u = Ok text /\
    osl_relation_read env (File (text ++ rest) e) = Ok (u, File rest e).
Proof.
  intros cfg env k t u rest e Hcfg Hk Hne Hlen Hty Hp Ht Ha.
  assert (Ht' : Forall (fun r => rtype r = t) u) by (eapply Forall_impl; [|exact Ht]; now intros r (? & _)).
  destruct (C20_sprints cfg k t u Hcfg Hk Hne Hlen Hp Ht' Ha) as (text & Et & Hsh).
  exists text. split; [assumption|]. apply (C20_print_read cfg env t); auto; [lia|].
  rewrite Forall_forall in *. intros r Hin. destruct (Ht r Hin) as [H1 H2]. pose proof (Hp r Hin) as Hr.
  split; [apply Hr|]. split; [assumption|]. split; [assumption|]. apply (printable_dims cfg k 12 r Hk ltac:(lia) Hr).
Qed.
Print Assumptions C20_total_roundtrip.

(** A read access [A2[i+3]] with one parameter meets all the hypotheses; its text, comments included, is as
    expected and reads back. *)
Definition ex_access : list relation :=
  [mkrel TYPE_READ 64 2 6 2 1 0 1 [[0;-1;0;0;0;2];[0;0;-1;1;0;3]]].
Example C20_ex_printable : Forall (printable lp64_debug 3 12) ex_access /\
  Forall (fun r => rtype r = TYPE_READ /\ rprec r = 64) ex_access /\ arrays_known ex_access (2 ^ 31 - 1) /\
  printable_type TYPE_READ /\ zlength ex_access < 2 ^ 31 - 1.
Proof.
  split.
  { constructor; [|constructor]. split; [|split; [|split; [|split]]].
    - unfold wf_rel. cbn [rtype rprec nrows ncols rm]. LoopLemmas.wf_lit; cbn; try lia.
    - unfold coherent_dims. cbn. unfold TYPE_CONTEXT, TYPE_DOMAIN, TYPE_READ, access_type. repeat split; intros; try lia.
    - unfold short_coefficients. cbn [rm rprec]. repeat (apply Forall_cons || apply Forall_nil || split); try lia;
        unfold representable; cbn; lia.
    - cbn; lia.
    - cbn; lia. }
  split; [constructor; [split; reflexivity|constructor]|]. split.
  { intros _. exists 2. split; [lia|]. split.
    - constructor; [|constructor]. split; [lia|]. exists [], [[0;0;-1;1;0;3]], (-1), 2. repeat split; try lia.
      constructor; [reflexivity|constructor].
    - cbn [rows]. constructor; [|constructor]. cbn. repeat (apply Forall_cons || apply Forall_nil); lia. }
  split; [cbn; tauto|cbn; lia].
Qed.
Example C20_ex_comments : @osl_relation_sprint lp64_debug ex_access = Ok
  (lit "READ" ++ [c_nl] ++ lit "2 6 2 1 0 1" ++ [c_nl]
   ++ lit "# e/i| Arr  [1]| i1 | P1 |  1  " ++ [c_nl]
   ++ lit "   0   -1    0    0    0    2    ## Arr == A2" ++ [c_nl]
   ++ lit "   0    0   -1    1    0    3    ## [1] == i1+3" ++ [c_nl]).
Proof. vm_compute. reflexivity. Qed.
(** The names of its columns. *)
Example C43_ex_names : exists n, @osl_relation_names lp64_debug ex_access = Ok n /\
  column_names (hd (mkrel 0 0 0 0 0 0 0 0 []) ex_access) n = map lit ["e/i"; "Arr"; "[1]"; "i1"; "P1"; "1"]%string /\
  coherent_dims (hd (mkrel 0 0 0 0 0 0 0 0 []) ex_access) /\
  enough_names (hd (mkrel 0 0 0 0 0 0 0 0 []) ex_access) n.
Proof.
  eexists. split; [vm_compute; reflexivity|]. split; [vm_compute; reflexivity|]. split.
  - destruct C20_ex_printable as (H & _). apply Forall_inv in H. apply H.
  - unfold enough_names. cbn. unfold TYPE_READ, TYPE_DOMAIN, TYPE_CONTEXT. repeat split; intros; try lia.
    destruct H. now (right; left).
Qed.
