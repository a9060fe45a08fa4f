(** * Reading back printed relations *)
From Coq Require Import ZifyBool ZifyNat.
From Verif Require Import Base IntModel VectorModel RelationModel UtilModel StringsModel RelTextModel
  Spec RelSpec TextSpec LoopLemmas IntProofs TextInt VectorProofs RelationProofs UtilProofs RelTextProofs
  PropStrings.

(** ** The shape of a printed relation *)
Definition cells_text (row : list Z) : str :=
  concat (map (fun v => pad4 (print_Z v) ++ [c_sp]) row).
(** comment lines *)
Inductive comment_line : str -> Prop :=
| cl_nil : comment_line []
| cl_cons w p : no_nl w -> comment_line p -> comment_line (c_hash :: w ++ c_nl :: p).
Definition fits_buffer (v : Z) : Prop := zlength (print_Z v) < 2048.
Inductive rows_text : list (list Z) -> str -> Prop :=
| rt_nil : rows_text [] []
| rt_cons pre row rs w t : comment_line pre -> no_nl w -> Forall fits_buffer row -> rows_text rs t ->
    rows_text (row :: rs) (pre ++ cells_text row ++ comment_head ++ w ++ c_nl :: t).
Definition dims_line (r : relation) : str :=
  print_Z (nrows r) ++ [c_sp] ++ print_Z (ncols r) ++ [c_sp] ++ print_Z (nout r) ++ [c_sp]
  ++ print_Z (nin r) ++ [c_sp] ++ print_Z (nloc r) ++ [c_sp] ++ print_Z (npar r).
Definition part_text (r : relation) (t : str) : Prop :=
  exists pre body, t = pre ++ dims_line r ++ c_nl :: body /\ comment_line pre /\ rows_text (rm r) body /\
    (0 < nrows r -> 0 < ncols r).
Inductive parts_text : list relation -> str -> Prop :=
| pt_nil : parts_text [] []
| pt_cons r u t t' : part_text r t -> parts_text u t' -> parts_text (r :: u) (t ++ t').

(** The six attributes are C ints. *)
Definition int_dims (r : relation) : Prop :=
  c_int (nrows r) /\ c_int (ncols r) /\ c_int (nout r) /\ c_int (nin r) /\ c_int (nloc r) /\ c_int (npar r).

Section T.
Context {cfg : config} (Hcfg : config_ok cfg).

Lemma print_dims_line r : print_dims r = dims_line r ++ [c_nl].
Proof. unfold print_dims, dims_line. rewrite <- ?app_assoc. reflexivity. Qed.

Lemma int_length v : c_int v -> (List.length (print_Z v) <= 11)%nat.
Proof. intros H. apply print_Z_length; [lia|]. unfold c_int in H. lia. Qed.
Lemma dims_length r : int_dims r -> (List.length (dims_line r) <= 71)%nat.
Proof.
  intros (H1 & H2 & H3 & H4 & H5 & H6). apply int_length in H1, H2, H3, H4, H5, H6.
  unfold dims_line. rewrite !app_length. cbn [List.length]. lia.
Qed.
Lemma snp_dims r : int_dims r -> snp (print_dims r) = dims_line r ++ [c_nl].
Proof.
  intros H. apply dims_length in H. rewrite print_dims_line. unfold snp. apply firstn_all2.
  rewrite app_length. cbn [List.length]. lia.
Qed.
Lemma dims_no_nl r : no_nl (dims_line r).
Proof.
  assert (S : no_nl [c_sp]) by (apply no_nl_lit; reflexivity).
  unfold dims_line. repeat (apply no_nl_app; split); try apply print_Z_no_nl; apply S.
Qed.

Lemma print_cells_shape r i s : wf_rel cfg r -> 0 <= i < nrows r -> 0 < ncols r ->
  print_cells r i = Ok s -> s = cells_text (znth [] (rm r) i) /\ Forall fits_buffer (znth [] (rm r) i).
Proof.
  intros Hw Hi HC H. pose proof (wf_mat r Hw) as M.
  pose proof (mat_row _ _ _ i M Hi HC) as Hl. set (row := znth [] (rm r) i) in *.
  unfold print_cells in H.
  assert (X : s = cells_text (firstn (Z.to_nat (ncols r)) row) /\ Forall fits_buffer (firstn (Z.to_nat (ncols r)) row)).
  { revert H. apply (cfor_post (fun j s => s = cells_text (firstn (Z.to_nat j) row) /\ Forall fits_buffer (firstn (Z.to_nat j) row))).
    - lia.
    - cbn. split; [reflexivity|constructor].
    - intros j x x1 Hj (-> & Hf) H. rewrite (mget_ok _ _ _ i j M) in H by lia. cbn [bind] in H. inv_bind H. inv_bind H.
      apply Ok_inj in H. subst x1. pose proof (buf_store_eq _ _ E0). subst v0.
      assert (v = pad4 (print_Z (cell (rm r) i j))).
      { unfold osl_int_sprint, pswitch in E. destruct (is_fixed _); [congruence|]. destruct (is_mp _); congruence. }
      subst v. change (cell (rm r) i j) with (znth 0 row j) in *.
      replace (Z.to_nat (j + 1)) with (Z.to_nat j + 1)%nat by lia.
      assert (Hn : firstn (Z.to_nat j + 1) row = firstn (Z.to_nat j) row ++ [znth 0 row j]).
      { rewrite <- (firstn_skipn (Z.to_nat j) row) at 1.
        assert (Hj' : (Z.to_nat j < List.length row)%nat) by (unfold zlength in Hl; lia).
        rewrite firstn_app, firstn_firstn, firstn_length, Nat.min_r, Nat.min_l by lia.
        f_equal. replace (Z.to_nat j + 1 - Z.to_nat j)%nat with 1%nat by lia.
        destruct (skipn (Z.to_nat j) row) as [|y l] eqn:Es.
        - apply (f_equal (@List.length Z)) in Es. rewrite skipn_length in Es. cbn in Es. lia.
        - cbn. f_equal. rewrite <- (firstn_skipn (Z.to_nat j) row), Es.
          unfold znth. rewrite app_nth2; rewrite firstn_length, Nat.min_l by lia; [|lia]. now rewrite Nat.sub_diag. }
      rewrite Hn. split.
      + unfold cells_text. rewrite map_app, concat_app. cbn [map concat]. now rewrite app_nil_r.
      + apply Forall_app. split; [assumption|]. constructor; [|constructor]. unfold fits_buffer.
        unfold buf_store, MAX_STRING in E0. destruct (Z.ltb_spec (zlength (pad4 (print_Z (znth 0 row j)))) 2048); [|discriminate].
        unfold pad4 in *. rewrite zlength_app in *. pose proof (zlength_nonneg (repeat c_sp (4 - length (print_Z (znth 0 row j))))). lia. }
  rewrite firstn_all2 in X by (unfold zlength in Hl; lia). exact X.
Qed.

Lemma comment_line_app a b : comment_line a -> comment_line b -> comment_line (a ++ b).
Proof.
  intros Ha Hb. induction Ha as [|w p Hw Hp IH]; [assumption|].
  change ((c_hash :: w ++ c_nl :: p) ++ b) with (c_hash :: (w ++ c_nl :: p) ++ b).
  rewrite <- app_assoc. cbn [app]. now apply cl_cons.
Qed.
Lemma comment_line_blank a : comment_line a -> blank_text a.
Proof. induction 1; [apply bt_nil|now apply bt_comment]. Qed.
Lemma comment_line_one w : no_nl w -> comment_line (c_hash :: w ++ [c_nl]).
Proof. intros H. apply cl_cons; [assumption|constructor]. Qed.

Lemma comment_blank w : no_nl w -> blank_text (comment_head ++ w ++ [c_nl]).
Proof.
  intros Hw. change comment_head with ([c_sp; c_sp; c_sp; c_hash] ++ lit "# ").
  cbn [app]. repeat (apply bt_space; [reflexivity|]).
  change (blank_text (c_hash :: (lit "# " ++ w) ++ c_nl :: [])). apply bt_comment; [|constructor].
  apply no_nl_app. split; [apply no_nl_lit; reflexivity|assumption].
Qed.

Lemma print_rows_shape u r strings arrays t : wf_rel cfg r -> Forall no_nl strings -> Forall no_nl (elems arrays) ->
  print_rows u r strings arrays = Ok t ->
  rows_text (rm r) t /\ (0 < nrows r -> 0 < ncols r).
Proof.
  intros Hw Hs Ha H. pose proof (wf_nn r Hw) as [HR HC].
  destruct (Z.eq_dec (nrows r) 0) as [E0|E0].
  - unfold print_rows in H. rewrite cfor_empty in H by lia. apply Ok_inj in H. subst t.
    destruct Hw as (_ & _ & _ & Hz & _). rewrite Hz by auto. split; [constructor|lia].
  - destruct (Z.eq_dec (ncols r) 0) as [Ec|Ec].
    + exfalso. unfold print_rows in H. rewrite cfor_step in H by lia.
      destruct Hw as (_ & _ & _ & Hz & _). specialize (Hz (or_intror Ec)).
      unfold print_cells in H. rewrite cfor_empty in H by lia. cbn [bind] in H.
      unfold osl_relation_sprint_comment, osl_relation_is_simple_output, osl_relation_expression,
        osl_relation_subexpression in H. rewrite Hz in H. cbn [orb bind negb Z.eqb] in H.
      rewrite cfor_empty in H by lia. discriminate.
    + pose proof (wf_mat r Hw) as M. pose proof M as (_ & _ & _ & Hm). destruct Hm as [Hlen _]; [lia|lia|].
      split; [|lia].
      assert (X : rows_text (firstn (Z.to_nat (nrows r)) (rm r)) t).
      { revert H. apply (cfor_post (fun i t => rows_text (firstn (Z.to_nat i) (rm r)) t)); [lia|constructor|].
        intros i t0 t1 Hi Ht0 H. inv_bind H. inv_bind H. apply Ok_inj in H. subst t1.
        apply (print_cells_shape r i v Hw Hi) in E as [-> Hf]; [|lia].
        apply sprint_comment_shape in E1 as (w & -> & Hwn); [|assumption|assumption].
        replace (firstn (Z.to_nat (i + 1)) (rm r)) with (firstn (Z.to_nat i) (rm r) ++ [znth [] (rm r) i]).
        - clear - Ht0 Hwn Hf. induction Ht0 as [|pre row rs w' t Hp Hw' Hb Ht IH].
          + cbn [app]. rewrite <- app_assoc. apply (rt_cons [] _ [] w []); try assumption; [constructor|constructor].
          + cbn [app]. rewrite <- !app_assoc. cbn [app]. apply rt_cons; try assumption.
        - replace (Z.to_nat (i + 1)) with (Z.to_nat i + 1)%nat by lia.
          apply (list_ext []).
          + rewrite zlength_app. unfold zlength in *. rewrite !firstn_length. cbn. lia.
          + intros k Hk. rewrite znth_app by lia. rewrite zlength_firstn by lia.
            replace (Z.to_nat i + 1)%nat with (Z.to_nat (i + 1)) by lia.
            assert (zlength (firstn (Z.to_nat i) (rm r) ++ [znth [] (rm r) i]) = i + 1).
            { rewrite zlength_app, zlength_firstn, zlength_one by lia. lia. }
            rewrite (znth_firstn _ _ (i + 1)) by lia.
            destruct (Z.ltb_spec k (Z.min i (zlength (rm r)))).
            * rewrite znth_firstn by lia. reflexivity.
            * replace k with i by lia. rewrite Z.min_l by lia. rewrite Z.sub_diag. reflexivity. }
      rewrite firstn_all2 in X by (unfold zlength in Hlen; lia). exact X.
Qed.

Lemma print_part_shape nb u r part n t : wf_rel cfg r -> int_dims r -> good_names n ->
  print_part nb u r part n = Ok t -> part_text r t /\ (nb <= 1 -> exists b, t = dims_line r ++ c_nl :: b).
Proof.
  intros Hw Hd Hn H. unfold print_part in H. inv_bind H. inv_bind H. inv_bind H. apply Ok_inj in H. subst t.
  apply (relation_strings_no_nl r n v Hn) in E.
  assert (Hc : comment_line v0 /\ (nrows r <= 0 -> v0 = [])).
  { destruct (Z.ltb_spec 0 (nrows r)); [|injection E0 as <-; split; [constructor|auto]]. inv_bind E0.
    apply Ok_inj in E0. subst v0. split; [|lia]. destruct (column_string_shape r v v2 E E2) as (w & -> & Hw').
    now apply comment_line_one. }
  destruct Hc as [Hc Hc0].
  apply print_rows_shape in E1 as [Hr Hrc]; [|assumption|assumption|apply Hn].
  rewrite snp_dims by assumption.
  split.
  - exists (if 1 <? nb then lit "# Union part No." ++ print_Z part ++ [c_nl] else []), (v0 ++ v1).
    split; [|split; [|split]].
    + rewrite <- !app_assoc. reflexivity.
    + destruct (1 <? nb); [|constructor].
      change (comment_line (c_hash :: lit " Union part No." ++ print_Z part ++ [c_nl])). rewrite app_assoc.
      apply comment_line_one. apply no_nl_app. split; [apply no_nl_lit; reflexivity|apply print_Z_no_nl].
    + inversion Hr; subst.
      * pose proof (wf_nn r Hw) as Hnn. destruct (Z.eq_dec (nrows r) 0) as [E'|E'].
        -- rewrite Hc0 by lia. constructor.
        -- exfalso. pose proof (wf_mat r Hw) as (_ & _ & _ & Hm). destruct Hm as [Hm _]; [lia|lia|].
           match goal with h : [] = rm r |- _ => rewrite <- h in Hm end. change (zlength (@nil (list Z))) with 0 in Hm. lia.
      * rewrite app_assoc. apply rt_cons; try assumption. now apply comment_line_app.
    + assumption.
  - intros Hnb. destruct (Z.ltb_spec 1 nb); [lia|]. cbn [app]. rewrite <- app_assoc. exists (v0 ++ v1). reflexivity.
Qed.

Lemma print_parts_shape nb n : good_names n -> forall u k t, Forall (wf_rel cfg) u -> Forall int_dims u ->
  print_parts nb u k n = Ok t -> parts_text u t.
Proof.
  intros Hn. induction u as [|r u IH]; intros k t Hw Hd H; cbn [print_parts] in H.
  - injection H as <-. constructor.
  - inversion Hw; inversion Hd; subst. inv_bind H. inv_bind H. apply Ok_inj in H. subst t.
    apply print_part_shape in E as [E _]; try assumption. constructor; [assumption|]. eapply IH; eauto.
Qed.

(** ** Reading a row *)
Lemma mget_at A (d k : list Z) x B : mget (A ++ (d ++ x :: k) :: B) (zlength A) (zlength d) = Ok x.
Proof.
  unfold mget, aget. pose proof (zlength_nonneg A). pose proof (zlength_nonneg d).
  destruct (Z.ltb_spec (zlength A) 0); [lia|].
  replace (Z.to_nat (zlength A)) with (List.length A) by (unfold zlength; lia).
  rewrite nth_error_app2, Nat.sub_diag by lia. cbn [nth_error bind].
  destruct (Z.ltb_spec (zlength d) 0); [lia|].
  replace (Z.to_nat (zlength d)) with (List.length d) by (unfold zlength; lia).
  rewrite nth_error_app2, Nat.sub_diag by lia. reflexivity.
Qed.
Lemma list_set_at {T} (A : list T) x y B : list_set (List.length A) y (A ++ x :: B) = A ++ y :: B.
Proof. induction A as [|a A IH]; cbn; [reflexivity|now rewrite IH]. Qed.
Lemma aset_at {T} (A : list T) x y B : aset (A ++ x :: B) (zlength A) y = Ok (A ++ y :: B).
Proof.
  unfold aset. pose proof (zlength_nonneg A).
  assert (Z.of_nat (List.length (A ++ x :: B)) = zlength A + 1 + zlength B).
  { unfold zlength. rewrite app_length. cbn [List.length]. lia. }
  pose proof (zlength_nonneg B).
  destruct (Z.leb_spec 0 (zlength A)), (Z.ltb_spec (zlength A) (Z.of_nat (List.length (A ++ x :: B)))); try lia.
  cbn [andb]. replace (Z.to_nat (zlength A)) with (List.length A) by (unfold zlength; lia).
  now rewrite list_set_at.
Qed.
Lemma mset_at A (d k : list Z) x v B :
  mset (A ++ (d ++ x :: k) :: B) (zlength A) (zlength d) v = Ok (A ++ (d ++ v :: k) :: B).
Proof.
  unfold mset, aget at 1. pose proof (zlength_nonneg A). destruct (Z.ltb_spec (zlength A) 0); [lia|].
  replace (Z.to_nat (zlength A)) with (List.length A) at 1 by (unfold zlength; lia).
  rewrite nth_error_app2, Nat.sub_diag by lia. cbn [nth_error bind].
  rewrite aset_at. cbn [bind]. apply aset_at.
Qed.

Definition visible (s : str) : Prop := Forall (fun c => not_space c = true) s.
Lemma print_Z_visible v : visible (print_Z v) /\ exists c t, print_Z v = c :: t /\ is_space c = false /\ c <> c_hash /\ c <> c_nl.
Proof.
  assert (D : forall ds, digits ds -> visible ds).
  { intros ds. apply Forall_impl. intros c Hc. unfold not_space. now rewrite digit_not_space. }
  assert (D2 : forall ds, digits ds -> ds <> [] -> exists c t, ds = c :: t /\ is_space c = false /\ c <> c_hash /\ c <> c_nl).
  { intros [|c t] Hd Hn; [congruence|]. inversion Hd; subst. exists c, t. split; [reflexivity|].
    split; [now apply digit_not_space|]. split; intros ->; discriminate. }
  unfold print_Z. destruct (Z.ltb_spec v 0).
  - destruct (print_nat_ok (- v)) as (Hd & _ & Hn); [lia|]. split.
    + constructor; [reflexivity|now apply D].
    + exists c_minus, (print_nat_Z (- v)). repeat split; discriminate.
  - destruct (print_nat_ok v) as (Hd & _ & Hn); [lia|]. split; [now apply D|now apply D2].
Qed.

Lemma sread_print p v old : representable cfg p v -> osl_int_sread (print_Z v) p old = Ok (1, v).
Proof.
  intros Hv. destruct (int_sread_sprint_txt Hcfg p v old [] Hv I) as (s & Hs & Hr).
  apply sprint_txt_eq in Hs. subst s. now rewrite app_nil_r in Hr.
Qed.

Definition only_sp (s : str) : Prop := Forall (fun c => c = c_sp) s.
Lemma only_sp_space s : only_sp s -> all_space s.
Proof. apply Forall_impl. intros c ->. reflexivity. Qed.

Lemma read_cell_print p v sp rest sc old : representable cfg p v -> fits_buffer v -> only_sp sp ->
  exists sc', read_cell p (sp ++ print_Z v ++ c_sp :: rest) sc old = Ok (v, c_sp :: rest, sc').
Proof.
  intros Hv Hb Hsp. unfold read_cell.
  rewrite skip_spaces_app by (apply only_sp_space; assumption).
  destruct (print_Z_visible v) as (Hvis & c & t & Hp & Hc & _).
  rewrite Hp. cbn [app]. rewrite skip_spaces_nonspace by assumption.
  change (c :: t ++ c_sp :: rest) with ((c :: t) ++ c_sp :: rest). rewrite <- Hp.
  rewrite (span_exact not_space (print_Z v) (c_sp :: rest)) by (assumption || reflexivity).
  rewrite (buf_store_ok _ Hb). cbn [bind]. rewrite sread_print by assumption. cbn [bind]. eauto.
Qed.

(** The text of the cells of a row, from the first character of the first
    number on. *)
Lemma read_cells_loop p A B tail : forall row v done junk sp sc,
  Forall (representable cfg p) (v :: row) -> Forall fits_buffer (v :: row) ->
  List.length junk = List.length (v :: row) -> only_sp sp ->
  exists sc', for_loop (List.length (v :: row)) (zlength done) (fun j s =>
    let '(m, c, sc) := s in
    if match c with ch :: _ => ceqb ch c_hash || ceqb ch c_nl | [] => false end then Err
    else
      old <- mget m (zlength A) j ;;
      '(v, c, sc) <- read_cell p c sc old ;;
      m <- mset m (zlength A) j v ;;
      Ok (m, c, sc)) (A ++ (done ++ junk) :: B, sp ++ print_Z v ++ c_sp :: cells_text row ++ tail, sc)
  = Ok (A ++ (done ++ v :: row) :: B, c_sp :: tail, sc').
Proof.
  induction row as [|v' row IH]; intros v done junk sp sc Hr Hb Hj Hsp;
    (destruct junk as [|x junk]; [discriminate|]); inversion Hr as [|? ? Hr1 Hr2]; subst;
    inversion Hb as [|? ? Hb1 Hb2]; subst; cbn [List.length for_loop].
  all: match goal with |- context [if ?b then Err else _] => replace b with false end;
    [|symmetry; destruct Hsp as [|c sp -> Hsp];
      [destruct (print_Z_visible v) as (_ & c & t & -> & _ & H1 & H2); cbn [app];
       apply orb_false_iff; split; apply ceqb_neq; assumption | reflexivity]].
  all: rewrite mget_at; cbn [bind].
  - destruct (read_cell_print p v sp (cells_text [] ++ tail) sc x Hr1 Hb1 Hsp) as (sc' & ->). cbn [bind].
    rewrite mset_at. cbn [bind]. destruct junk; [|discriminate]. exists sc'. reflexivity.
  - destruct (read_cell_print p v sp (cells_text (v' :: row) ++ tail) sc x Hr1 Hb1 Hsp) as (sc' & ->). cbn [bind].
    rewrite mset_at. cbn [bind].
    replace (zlength done + 1) with (zlength (done ++ [v])) by (rewrite zlength_app, zlength_one; lia).
    change (done ++ v :: junk) with (done ++ [v] ++ junk). rewrite app_assoc.
    destruct (IH v' (done ++ [v]) junk (c_sp :: repeat c_sp (4 - List.length (print_Z v'))) sc') as (sc2 & H2).
    + assumption.
    + assumption.
    + cbn in Hj |- *. lia.
    + constructor; [reflexivity|]. apply Forall_forall. intros c Hc. now apply repeat_spec in Hc.
    + exists sc2. replace (done ++ v :: v' :: row) with ((done ++ [v]) ++ v' :: row) by (now rewrite <- app_assoc).
      rewrite <- H2. f_equal. f_equal. f_equal.
      unfold cells_text at 1. cbn [map concat]. fold (cells_text row). unfold pad4. rewrite <- !app_assoc. reflexivity.
Qed.

Lemma read_cells_ok p A B junk row v sp tail sc :
  Forall (representable cfg p) (v :: row) -> Forall fits_buffer (v :: row) ->
  List.length junk = List.length (v :: row) -> only_sp sp ->
  exists sc', read_cells p (zlength A) (zlength (v :: row)) (A ++ junk :: B)
    (sp ++ print_Z v ++ c_sp :: cells_text row ++ tail) sc
  = Ok (A ++ (v :: row) :: B, c_sp :: tail, sc').
Proof.
  intros Hr Hb Hj Hsp. destruct (read_cells_loop p A B tail row v [] junk sp sc Hr Hb Hj Hsp) as (sc' & H).
  exists sc'. unfold read_cells, cfor.
  replace (Z.to_nat (zlength (v :: row) - 0)) with (List.length (v :: row)) by (unfold zlength; lia).
  exact H.
Qed.
End T.
