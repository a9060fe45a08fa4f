(** * ScoplibProofs: the words of the texts in the SCoPLib format *)
From Coq Require Import ZifyBool ZifyNat.
From Verif Require Import Base IntModel VectorModel RelationModel UtilModel StringsModel RelTextModel ExtModel ScopModel CloneModel
  Spec RelSpec TextSpec LoopLemmas IntProofs TextInt VectorProofs RelationProofs UtilProofs RelTextProofs PropStrings RelTextProofs2
  PropRelText ScoplibModel ScoplibSpec.

(** [a] contributes exactly the words [l], whatever follows. *)
Definition closed (a : str) (l : list str) : Prop := forall b, words (a ++ b) = l ++ words b.
Lemma closed_words a l : closed a l -> words a = l.
Proof. intros H. specialize (H []). rewrite !app_nil_r in H. cbn in H. exact H. Qed.
Lemma closed_nil : closed [] [].
Proof. intros b. reflexivity. Qed.
Lemma closed_app a l a' l' : closed a l -> closed a' l' -> closed (a ++ a') (l ++ l').
Proof. intros H H' b. now rewrite <- !app_assoc, H, H'. Qed.
Lemma closed_app0 a a' l : closed a [] -> closed a' l -> closed (a ++ a') l.
Proof. intros H H'. apply (closed_app a [] a' l); assumption. Qed.
Lemma closed_sp : closed [c_sp] [].
Proof. intros b. reflexivity. Qed.
Lemma closed_nl : closed [c_nl] [].
Proof. intros b. reflexivity. Qed.
Lemma comment_words w b : no_nl w -> words_from true [] (w ++ c_nl :: b) = words b.
Proof.
  induction w as [|c w IH]; intros H; [reflexivity|]. cbn [app words_from].
  destruct (ceqb c c_nl) eqn:E; [exfalso; apply H; left; symmetry; now apply ceqb_eq in E|]. apply IH. intros X. apply H. now right.
Qed.
Lemma closed_comment w : no_nl w -> closed (c_hash :: w ++ [c_nl]) [].
Proof. intros H b. cbn [app]. rewrite <- app_assoc. cbn [app]. exact (comment_words w b H). Qed.
Lemma visible_words w : Forall (fun c => is_space c = false /\ c <> c_hash /\ c <> c_nl) w -> forall a b,
  words_from false a (w ++ b) = words_from false (a ++ w) b.
Proof.
  induction 1 as [|c w (H1 & H2 & H3) H IH]; intros a b; [now rewrite app_nil_r|]. cbn [app words_from].
  destruct (ceqb c c_nl) eqn:E1; [now apply ceqb_eq in E1|]. destruct (ceqb c c_hash) eqn:E2; [now apply ceqb_eq in E2|]. rewrite H1.
  rewrite IH, <- app_assoc. reflexivity.
Qed.
Lemma closed_word w c : w <> [] -> Forall (fun c => is_space c = false /\ c <> c_hash /\ c <> c_nl) w -> c = c_sp \/ c = c_nl -> closed (w ++ [c]) [w].
Proof.
  intros Hn H Hc b. rewrite <- app_assoc. unfold words at 1. rewrite visible_words by assumption. cbn [app].
  destruct w as [|x w]; [congruence|]. destruct Hc as [->| ->]; reflexivity.
Qed.
(** A complete line. *)
Lemma words_line_gen t : forall k w b, words_from k w (t ++ c_nl :: b) = words_from k w t ++ words b.
Proof.
  induction t as [|c t IH]; intros k w b; cbn [app words_from]; [reflexivity|].
  destruct (ceqb c c_nl); [now rewrite IH, app_assoc|]. destruct k; [apply IH|]. destruct (ceqb c c_hash); [now rewrite IH, app_assoc|].
  destruct (is_space c); [now rewrite IH, app_assoc|]. apply IH.
Qed.
Lemma closed_line t : closed (t ++ [c_nl]) (words t).
Proof. intros b. rewrite <- app_assoc. apply words_line_gen. Qed.
Lemma closed_spaces n : closed (repeat c_sp n) [].
Proof. induction n; [apply closed_nil|]. apply (closed_app0 [c_sp] _ []); [apply closed_sp|assumption]. Qed.
Lemma print_Z_word v : print_Z v <> [] /\ Forall (fun c => is_space c = false /\ c <> c_hash /\ c <> c_nl) (print_Z v).
Proof.
  destruct (print_Z_visible v) as [H (c & t & E & H1 & H2 & H3)]. split; [rewrite E; discriminate|].
  assert (X : forall s, digits s -> Forall (fun c => is_space c = false /\ c <> c_hash /\ c <> c_nl) s).
  { intros s Hs. unfold digits in Hs. eapply Forall_impl; [|exact Hs]. intros a Ha. cbn in Ha.
    pose proof Ha as Ha'. split; [|split; intros ->; discriminate]. destruct a as [[] [] [] [] [] [] [] []]; try reflexivity; discriminate. }
  unfold print_Z. destruct (Z.ltb_spec v 0).
  - constructor; [repeat split; discriminate|]. apply X. apply print_nat_ok; lia.
  - apply X. apply print_nat_ok; lia.
Qed.
Lemma closed_Z v c : c = c_sp \/ c = c_nl -> closed (print_Z v ++ [c]) (numbers [v]).
Proof. intros Hc. destruct (print_Z_word v). now apply closed_word. Qed.
Lemma closed_cell v : closed (pad4 (print_Z v) ++ [c_sp]) (numbers [v]).
Proof. unfold pad4. rewrite <- app_assoc. apply closed_app0; [apply closed_spaces|]. apply closed_Z. now left. Qed.
Lemma numbers_app a b : numbers (a ++ b) = numbers a ++ numbers b.
Proof. apply map_app. Qed.
Lemma closed_zero : closed zero_cell (numbers [0]).
Proof. apply (closed_cell 0). Qed.
Lemma closed_one : closed one_cell (numbers [1]).
Proof. apply (closed_cell 1). Qed.
Lemma closed_size a b : closed (size_line a b) (numbers [a; b]).
Proof.
  unfold size_line. change (numbers [a; b]) with (numbers [a] ++ numbers [b]). rewrite app_assoc.
  apply closed_app; [apply closed_Z; now left|]. apply closed_Z. now right.
Qed.
Lemma closed_title t : no_nl t -> closed (ln (c_hash :: t)) [].
Proof. intros H. unfold ln. apply closed_comment. exact H. Qed.

Section ROWS.
Context {cfg : config}.

(** The dimensions of a relation cover its columns. *)
Definition covered (r : relation) : Prop :=
  0 <= nout r /\ 0 <= nin r /\ 0 <= nloc r /\ 0 <= npar r /\ ncols r = 2 + nout r + nin r + nloc r + npar r.

Lemma number_text p v t : scoplib_number p v = Ok t -> t = pad4 (print_Z v).
Proof.
  unfold scoplib_number, osl_int_sprint, pswitch. intros H. inv_bind H. apply buf_store_eq in H. subst t.
  destruct (is_fixed p); [congruence|]. destruct (is_mp p); congruence.
Qed.
Lemma firstn_snoc {A} (d : A) (l : list A) k : 0 <= k < zlength l -> firstn (Z.to_nat (k + 1)) l = firstn (Z.to_nat k) l ++ [znth d l k].
Proof.
  intros Hk. unfold znth, zlength in *. replace (Z.to_nat (k + 1)) with (S (Z.to_nat k)) by lia.
  assert (Hn : (Z.to_nat k < List.length l)%nat) by lia. revert Hn. generalize (Z.to_nat k) as n. clear Hk.
  induction l as [|x l IH]; intros n Hn; [cbn in Hn; lia|]. destruct n as [|n]; [reflexivity|]. cbn [firstn nth app].
  rewrite <- IH by (cbn in Hn; lia). reflexivity.
Qed.
Lemma cells_closed access r i lo hi zero row t :
  (forall j, lo <= j < hi -> if access && (nrows r =? 1) && (j =? ncols r - 1) then znth 0 row j = 0 else mget (rm r) i j = Ok (znth 0 row j)) ->
  (access = true -> closed zero (numbers [0])) -> 0 <= lo <= hi -> hi <= zlength row -> scoplib_cells access r i lo hi zero = Ok t ->
  closed t (numbers (firstn (Z.to_nat (hi - lo)) (skipn (Z.to_nat lo) row))).
Proof.
  intros Hm Hz Hlo Hhi H. unfold scoplib_cells in H. revert H.
  apply (cfor_post (fun j s => closed s (numbers (firstn (Z.to_nat (j - lo)) (skipn (Z.to_nat lo) row))))); [lia| |].
  - rewrite Z.sub_diag. apply closed_nil.
  - intros j s s' Hj Hs H. replace (j + 1 - lo) with ((j - lo) + 1) by lia.
    rewrite (firstn_snoc 0) by (rewrite zlength_skipn by lia; lia). rewrite znth_skipn by lia. replace (lo + (j - lo)) with j by lia.
    rewrite numbers_app. specialize (Hm j ltac:(lia)). destruct (access && (nrows r =? 1) && (j =? ncols r - 1)) eqn:Ea.
    + apply Ok_inj in H. subst s'. rewrite Hm. apply closed_app; [assumption|]. apply Hz. now destruct access.
    + rewrite Hm in H. cbn [bind] in H. inv_bind H. apply Ok_inj in H. subst s'. apply number_text in E. subst v.
      apply closed_app; [assumption|]. apply closed_cell.
Qed.

Lemma firstn_rest {A} (l : list A) n : 0 <= n <= zlength l -> firstn (Z.to_nat (zlength l - n)) (skipn (Z.to_nat n) l) = skipn (Z.to_nat n) l.
Proof. intros H. apply firstn_all2. rewrite skipn_length. unfold zlength in *. lia. Qed.
Lemma firstn_cons (row : list Z) n : 0 < zlength row -> 0 <= n -> firstn (Z.to_nat (1 + n)) row = znth 0 row 0 :: firstn (Z.to_nat n) (skipn (Z.to_nat 1) row).
Proof.
  intros H Hn. destruct row as [|x row]; [cbn in H; lia|]. replace (Z.to_nat (1 + n)) with (S (Z.to_nat n)) by lia. reflexivity.
Qed.
Lemma row_of r i : wf_rel cfg r -> 0 < ncols r -> 0 <= i < nrows r -> zlength (znth [] (rm r) i) = ncols r /\
  forall j, 0 <= j < ncols r -> mget (rm r) i j = Ok (znth 0 (znth [] (rm r) i) j).
Proof.
  intros W C Hi. pose proof (wf_mat r W) as M. split; [now apply (mat_row _ _ _ i M)|]. intros j Hj. now apply (mget_ok _ _ _ i j M).
Qed.
Lemma row_domain fake start r i t : wf_rel cfg r -> covered r -> rtype r = TYPE_DOMAIN -> 0 <= i < nrows r ->
  scoplib_row false fake start r i = Ok t -> closed t (numbers (without_inputs r (znth [] (rm r) i))).
Proof.
  intros W (C1 & C2 & C3 & C4 & C5) T Hi H. destruct (row_of r i W ltac:(lia) Hi) as [L G]. unfold scoplib_row in H. cbn [negb] in H.
  rewrite G in H by lia. cbn [bind] in H. inv_bind H. apply number_text in E. subst v. rewrite T in H. cbn [Z.eqb] in H.
  change (TYPE_DOMAIN =? TYPE_DOMAIN) with true in H. cbv iota in H. inv_bind H. apply Ok_inj in H. subst t. inv_bind E. inv_bind E. apply Ok_inj in E. subst v.
  rewrite app_assoc. unfold without_inputs. rewrite firstn_cons by lia. rewrite <- (app_comm_cons _ _ (znth 0 _ 0)).
  change (numbers (?x :: ?y)) with (numbers [x] ++ numbers y). apply closed_app; [apply closed_cell|]. rewrite numbers_app. apply closed_app.
  - replace (nout r) with (1 + nout r - 1) by lia.
    apply (cells_closed _ _ _ _ _ _ (znth [] (rm r) i)) in E0; [exact E0| | | |]; cbn [andb]; try lia; try discriminate. intros j Hj. apply G. lia.
  - rewrite <- firstn_rest by lia. rewrite L.
    apply (cells_closed _ _ _ _ _ _ (znth [] (rm r) i)) in E1; [exact E1| | | |]; cbn [andb]; try lia; try discriminate. intros j Hj. apply G. lia.
Qed.
(** The columns after the first one, in a relation that is not a domain. *)
Lemma rest_cells (access fake : bool) r i row zero zero' a b :
  (forall j, 1 + nout r <= j < ncols r -> if access && (nrows r =? 1) && (j =? ncols r - 1) then znth 0 row j = 0 else mget (rm r) i j = Ok (znth 0 row j)) ->
  (access = true -> closed zero (numbers [0])) -> (access = true -> closed zero' (numbers [0])) -> covered r -> zlength row = ncols r ->
  scoplib_cells access r i (1 + nout r) (1 + nout r + nin r) zero = Ok a ->
  scoplib_cells access r i (Z.max (1 + nout r) (1 + nout r + nin r)) (ncols r) zero' = Ok b ->
  closed (a ++ (if fake then zero_cell else []) ++ b) (numbers (after_outputs fake r row)).
Proof.
  intros G Z1 Z2 (C1 & C2 & C3 & C4 & C5) L E1 E2. rewrite Z.max_r in E2 by lia.
  apply (cells_closed _ _ _ _ _ _ row) in E1; [| |assumption|lia|lia]; [|intros j Hj; apply G; lia].
  apply (cells_closed _ _ _ _ _ _ row) in E2; [| |assumption|lia|lia]; [|intros j Hj; apply G; lia].
  unfold after_outputs. rewrite !numbers_app. apply closed_app; [|apply closed_app].
  - now replace (1 + nout r + nin r - (1 + nout r)) with (nin r) in E1 by lia.
  - destruct fake; [apply closed_zero|apply closed_nil].
  - rewrite <- firstn_rest by lia. now rewrite L.
Qed.
Lemma row_other fake start r i t : wf_rel cfg r -> covered r -> rtype r <> TYPE_DOMAIN -> 0 <= i < nrows r ->
  scoplib_row false fake start r i = Ok t ->
  closed t (numbers (first_cell (znth [] (rm r) i) :: after_outputs fake r (znth [] (rm r) i))).
Proof.
  intros W C T Hi H. pose proof C as (C1 & C2 & C3 & C4 & C5). destruct (row_of r i W ltac:(lia) Hi) as [L G]. unfold scoplib_row in H. cbn [negb] in H.
  rewrite G in H by lia. cbn [bind] in H. inv_bind H. apply number_text in E. subst v. destruct (Z.eqb_spec (rtype r) TYPE_DOMAIN) as [X|_]; [contradiction|].
  inv_bind H. apply Ok_inj in H. subst t. inv_bind E. inv_bind E. apply Ok_inj in E. subst v. rewrite app_assoc.
  change (numbers (?x :: ?y)) with (numbers [x] ++ numbers y). apply closed_app.
  - replace (first_cell (znth [] (rm r) i)) with (znth 0 (znth [] (rm r) i) 0); [apply closed_cell|]. destruct (znth [] (rm r) i); reflexivity.
  - eapply rest_cells; [| | |exact C|exact L|exact E0|exact E1]; cbn [andb]; try discriminate. intros j Hj. apply G. lia.
Qed.
(** The row of an access; that of a variable has no constant. *)
Definition shown_row (r : relation) (i : Z) : list Z :=
  let row := znth [] (rm r) i in if nrows r =? 1 then removelast row ++ [0] else row.
Lemma row_access fake start r i t : wf_rel cfg r -> covered r -> rtype r <> TYPE_DOMAIN -> 0 <= i < nrows r ->
  scoplib_row true fake start r i = Ok t ->
  closed t (numbers ((if i =? start then array_number r else 0) :: after_outputs fake r (shown_row r i))).
Proof.
  intros W C T Hi H. pose proof C as (C1 & C2 & C3 & C4 & C5). destruct (row_of r i W ltac:(lia) Hi) as [L G].
  destruct (row_of r 0 W ltac:(lia) ltac:(lia)) as [L0 G0]. unfold scoplib_row in H. cbn [negb] in H.
  destruct (Z.eqb_spec (rtype r) TYPE_DOMAIN) as [X|_]; [contradiction|]. inv_bind H.
  assert (F : closed (v ++ [c_sp]) (numbers [if i =? start then array_number r else 0])).
  { destruct (i =? start).
    - rewrite G0 in E by lia. cbn [bind] in E. apply number_text in E. subst v.
      replace (array_number r) with (znth 0 (znth [] (rm r) 0) (ncols r - 1)); [apply closed_cell|]. unfold array_number.
      replace (hd [] (rm r)) with (znth [] (rm r) 0) by (destruct (rm r); reflexivity). rewrite <- L0. unfold znth, zlength. 
      replace (Z.to_nat (Z.of_nat (Datatypes.length (nth (Z.to_nat 0) (rm r) [])) - 1)) with (pred (Datatypes.length (nth (Z.to_nat 0) (rm r) []))) by lia.
      generalize (nth (Z.to_nat 0) (rm r) []). intros l. induction l as [|x l IH]; [reflexivity|]. cbn [Datatypes.length pred]. destruct l as [|y l]; [reflexivity|].
      exact IH.
    - apply Ok_inj in E. subst v. apply (closed_app _ (numbers [0]) _ []); [apply closed_zero|apply closed_sp]. }
  inv_bind H. apply Ok_inj in H. subst t. inv_bind E0. inv_bind E0. apply Ok_inj in E0. subst v0. rewrite app_assoc.
  change (numbers (?x :: ?y)) with (numbers [x] ++ numbers y). apply closed_app; [exact F|].
  assert (Lr : zlength (removelast (znth [] (rm r) i)) = ncols r - 1).
  { destruct (exists_last (l := znth [] (rm r) i)) as (l & x & El); [intros X; rewrite X in L; cbn in L; lia|]. rewrite El in *. rewrite removelast_last.
    rewrite zlength_app, zlength_one in L. lia. }
  eapply rest_cells; [| | |exact C| |exact E1|exact E2]; [|intros _; apply closed_zero| |].
  - intros j Hj. cbn [andb]. unfold shown_row. destruct (Z.eqb_spec (nrows r) 1) as [E1r|E1r]; cbn [andb]; [|apply G; lia].
    destruct (Z.eqb_spec j (ncols r - 1)) as [->|Hj'].
    + rewrite znth_app, Lr by lia. destruct (Z.ltb_spec (ncols r - 1) (ncols r - 1)); [lia|]. now rewrite Z.sub_diag.
    + rewrite G by lia. f_equal. rewrite znth_app, Lr by lia. destruct (Z.ltb_spec j (ncols r - 1)); [|lia].
      destruct (exists_last (l := znth [] (rm r) i)) as (l & x & El); [intros X; rewrite X in L; cbn in L; lia|]. rewrite El in *. rewrite removelast_last.
      rewrite removelast_last in Lr. rewrite znth_app, Lr by lia. destruct (Z.ltb_spec j (ncols r - 1)); [reflexivity|lia].
  - intros _. apply (closed_app0 [c_sp; c_sp] (lit "0 ")); [apply (closed_spaces 2)|]. apply (closed_Z 0). now left.
  - unfold shown_row. destruct (nrows r =? 1); [|exact L]. rewrite zlength_app, Lr, zlength_one. lia.
Qed.

Fixpoint indices (i : Z) (n : nat) : list Z := match n with O => [] | S k => i :: indices (i + 1) k end.
Lemma indices_map {A B} (d : A) (g : A -> B) (m : list A) i : 0 <= i ->
  map (fun k => g (znth d m k)) (indices i (Z.to_nat (zlength m - i))) = map g (skipn (Z.to_nat i) m).
Proof.
  intros Hi. remember (Z.to_nat (zlength m - i)) as n eqn:En. revert i Hi En. induction n as [|n IH]; intros i Hi En.
  - rewrite skipn_all2 by (unfold zlength in En; lia). reflexivity.
  - cbn [indices map]. rewrite IH by lia. rewrite <- map_cons. f_equal. unfold znth, zlength in *.
    replace (Z.to_nat (i + 1)) with (S (Z.to_nat i)) by lia. assert (Hn : (Z.to_nat i < Datatypes.length m)%nat) by lia. revert Hn. generalize (Z.to_nat i) as k.
    clear. induction m as [|x m IH]; intros k Hn; [cbn in Hn; lia|]. destruct k as [|k]; [reflexivity|]. cbn [skipn nth]. apply IH. cbn in Hn. lia.
Qed.
Lemma closed_remark w : no_nl w -> closed (comment_head ++ w ++ [c_nl]) [].
Proof.
  intros H. change (comment_head ++ w ++ [c_nl]) with (repeat c_sp 3 ++ (c_hash :: (lit "# " ++ w) ++ [c_nl])).
  apply closed_app0; [apply closed_spaces|]. apply closed_comment. apply no_nl_app. split; [apply no_nl_lit; reflexivity|assumption].
Qed.
Lemma rows_closed access fake start u r strings arrays (f : Z -> list Z) :
  (forall i t, start <= i < nrows r -> scoplib_row access fake start r i = Ok t -> closed t (numbers (f i))) ->
  fake = false \/ rtype r <> TYPE_SCATTERING -> Forall no_nl strings -> Forall no_nl (elems arrays) ->
  forall fuel i t, start <= i -> scoplib_rows fuel access fake start u r i strings arrays = Ok t ->
  closed t (numbers (concat (map f (indices i (Z.to_nat (nrows r - i)))))).
Proof.
  intros F Hf Hs Ha. induction fuel as [|k IH]; intros i t Hi H; cbn [scoplib_rows] in H.
  - destruct (Z.ltb_spec i (nrows r)); [discriminate|]. apply Ok_inj in H. subst t. replace (Z.to_nat (nrows r - i)) with 0%nat by lia. apply closed_nil.
  - destruct (Z.ltb_spec i (nrows r)) as [Hlt|Hge].
    2:{ apply Ok_inj in H. subst t. replace (Z.to_nat (nrows r - i)) with 0%nat by lia. apply closed_nil. }
    inv_bind H. inv_bind H. replace (fake && (rtype r =? TYPE_SCATTERING)) with false in H.
    2:{ destruct Hf as [->|Hf]; [reflexivity|]. destruct (Z.eqb_spec (rtype r) TYPE_SCATTERING); [contradiction|]. now rewrite andb_false_r. }
    cbn [bind] in H. inv_bind H. apply Ok_inj in H. subst t. apply sprint_comment_shape in E0 as (w & -> & Hw); [|assumption|assumption].
    replace (Z.to_nat (nrows r - i)) with (S (Z.to_nat (nrows r - (i + 1)))) by lia. cbn [indices map concat]. rewrite numbers_app.
    apply closed_app; [apply F; [lia|assumption]|]. cbn [app]. change (c_nl :: v1) with ([c_nl] ++ v1). rewrite <- app_assoc, (app_assoc w), app_assoc.
    apply closed_app0; [now apply closed_remark|]. apply (IH (i + 1)); [lia|assumption].
Qed.
Lemma fake_line_closed r first t : 2 <= ncols r -> fake_line r first = Ok t ->
  closed t (numbers ([0; if first then 1 else 0] ++ zeros (ncols r - 2))).
Proof.
  intros Hc H. unfold fake_line in H.
  assert (X : forall n, 0 <= n -> closed (if first then one_cell else zero_cell) (numbers [if first then 1 else 0])) by (intros; destruct first; [apply closed_one|apply closed_zero]).
  rewrite cfor_step in H by lia. cbn [bind Z.eqb] in H. rewrite andb_false_r in H. rewrite cfor_step in H by lia. cbn [bind] in H. rewrite andb_true_r in H.
  revert H. apply (cfor_post (fun j s => closed s (numbers ([0; if first then 1 else 0] ++ zeros (j - 2))))); [lia| |].
  - apply (closed_app _ (numbers [0]) _ _); [apply closed_zero|]. now apply (X 0).
  - intros j s s' Hj Hs H. apply Ok_inj in H. subst s'. replace (first && (j =? 1)) with false by (destruct (Z.eqb_spec j 1); [lia|now rewrite andb_false_r]).
    unfold zeros. replace (Z.to_nat (j + 1 - 2)) with (Z.to_nat (j - 2) + 1)%nat by lia. rewrite repeat_app, app_assoc, numbers_app.
    apply closed_app; [exact Hs|apply closed_zero].
Qed.
Lemma rows_scattering_fake u r strings arrays fuel t : wf_rel cfg r -> covered r -> rtype r = TYPE_SCATTERING -> nrows r = 1 ->
  Forall no_nl strings -> Forall no_nl (elems arrays) ->
  scoplib_rows fuel false true 0 u r 0 strings arrays = Ok t ->
  closed t (numbers (concat (map (fun row => first_cell row :: after_outputs true r row) (rm r)) ++ [0; 1] ++ zeros (ncols r - 2) ++ zeros (ncols r))).
Proof.
  intros W C T N Hs Ha H. pose proof C as (C1 & C2 & C3 & C4 & C5). destruct fuel as [|k]; cbn [scoplib_rows] in H; rewrite N in H; cbn [Z.ltb Z.compare] in H; [discriminate|].
  inv_bind H. inv_bind H. rewrite T in H. change (true && (TYPE_SCATTERING =? TYPE_SCATTERING)) with true in H. cbv iota in H.
  assert (exists a b, fake_line r true = Ok a /\ fake_line r false = Ok b /\ t = v ++ v0 ++ [c_nl] ++ (a ++ [c_nl] ++ b ++ [c_nl]) ++ []) as (a & b & Ea & Eb & ->).
  { destruct (fake_line r true) as [a| | |]; cbn [bind] in H; try discriminate. destruct (fake_line r false) as [b| | |]; cbn [bind] in H; try discriminate.
    exists a, b. split; [reflexivity|]. split; [reflexivity|]. destruct k; cbn [scoplib_rows] in H; rewrite N in H; cbn [Z.add Pos.add Pos.succ Z.ltb Z.compare Pos.compare Pos.compare_cont bind] in H; apply Ok_inj in H; congruence. }
  apply sprint_comment_shape in E0 as (w & -> & Hw); [|assumption|assumption].
  apply (row_other true 0 r 0 v W C) in E; [|rewrite T; discriminate|lia].
  assert (R1 : rm r = [znth [] (rm r) 0]).
  { pose proof (wf_mat r W) as (_ & _ & _ & Hm). destruct Hm as [Hl _]; [lia|lia|]. rewrite N in Hl. destruct (rm r) as [|x [|y l]]; [discriminate|reflexivity|].
    rewrite !zlength_cons in Hl. pose proof (zlength_nonneg l). lia. }
  replace (map (fun row => first_cell row :: after_outputs true r row) (rm r))
    with [first_cell (znth [] (rm r) 0) :: after_outputs true r (znth [] (rm r) 0)] by (rewrite R1 at 3; reflexivity).
  cbn [concat]. rewrite (app_nil_r (first_cell _ :: _)), numbers_app. apply closed_app; [exact E|].
  rewrite (app_nil_r (a ++ _)), <- !app_assoc, (app_assoc w). rewrite app_assoc. apply closed_app0; [now apply closed_remark|].
  apply fake_line_closed in Ea, Eb; try lia. replace (zeros (ncols r)) with ([0; 0] ++ zeros (ncols r - 2)).
  2:{ unfold zeros. replace (Z.to_nat (ncols r)) with (2 + Z.to_nat (ncols r - 2))%nat by lia. reflexivity. }
  rewrite (app_assoc [0; 1] (zeros _)), numbers_app. apply closed_app; [exact Ea|]. apply closed_app0; [apply closed_nl|].
  rewrite <- (app_nil_r (numbers _)). apply closed_app; [exact Eb|apply closed_nl].
Qed.
End ROWS.
