(** * Property C48: the extension of irregular programs *)
From Verif Require Import Base LoopLemmas IntModel TextInt UtilModel UtilProofs Spec TextSpec ExtModel IrregModel.

(** ** What the statements mean *)
(** A structure whose arrays have the announced sizes. *)
Definition consistent (x : irregular) : Prop :=
  0 <= ir_control x /\ 0 <= ir_exit x /\ zlength (ir_predicates x) = ir_control x + ir_exit x.

(** One call: a control predicate, an exit predicate, the predicates of one more statement. *)
Inductive call := AddControl (iterators : list str) (body : str) | AddExit (iterators : list str) (body : str) | AddStatement (predicates : list Z).
Definition perform (x : irregular) (c : call) : res irregular :=
  match c with
  | AddControl i b => osl_irregular_add_control x i b
  | AddExit i b => osl_irregular_add_exit x i b
  | AddStatement l => osl_irregular_add_predicates x l
  end.
Fixpoint performs (h : list call) (x : irregular) : res irregular :=
  match h with [] => Ok x | c :: tl => x <- perform x c ;; performs tl x end.
(** What was added by a sequence of calls, in order. *)
Definition given (i : list str) (b : str) : predicate := Predicate (map Some i) (Some b).
Definition controls (h : list call) : list predicate := flat_map (fun c => match c with AddControl i b => [given i b] | _ => [] end) h.
Definition exits (h : list call) : list predicate := flat_map (fun c => match c with AddExit i b => [given i b] | _ => [] end) h.
Definition statements_of (h : list call) : list (list Z) := flat_map (fun c => match c with AddStatement l => [l] | _ => [] end) h.

(** ** Copies *)
Lemma brange_map {A B} (f : A -> res B) (pre mid post : list A) lo hi d :
  lo + d = zlength pre -> hi - lo = zlength mid ->
  brange lo hi (fun i => y <- aget (pre ++ mid ++ post) (i + d) ;; f y) = mapM f mid.
Proof.
  unfold brange. intros H1 H2. rewrite H2. clear H2 hi. unfold zlength at 1. rewrite Nat2Z.id. revert pre lo H1.
  induction mid as [|m mid IH]; intros pre lo H1; [reflexivity|]. cbn [List.length build mapM].
  assert (E : aget (pre ++ (m :: mid) ++ post) (lo + d) = Ok m).
  { unfold aget. rewrite H1. unfold zlength. destruct (Z.ltb_spec (Z.of_nat (List.length pre)) 0); [lia|].
    rewrite Nat2Z.id, nth_error_app2 by lia. now rewrite Nat.sub_diag. }
  rewrite E. cbn [bind]. destruct (f m); try reflexivity. cbn [bind].
  specialize (IH (pre ++ [m]) (lo + 1)). rewrite <- app_assoc in IH. cbn [app] in IH |- *. rewrite IH; [reflexivity|].
  unfold zlength in *. rewrite app_length. cbn. lia.
Qed.
Lemma build_ext {A} n : forall lo (f g : Z -> res A), (forall i, f i = g i) -> build n lo f = build n lo g.
Proof. induction n as [|n IH]; intros lo f g H; [reflexivity|]. cbn [build]. rewrite H, (IH _ f g H). reflexivity. Qed.
Lemma brange_all {A B} (f : A -> res B) (l : list A) : brange 0 (zlength l) (fun i => y <- aget l i ;; f y) = mapM f l.
Proof.
  rewrite <- (brange_map f [] l [] 0 (zlength l) 0) by (cbn; lia). unfold brange. apply build_ext. intros i. rewrite app_nil_r, Z.add_0_r. reflexivity.
Qed.
Lemma mapM_id {A} (f : A -> res A) (l : list A) : (forall x, f x = Ok x) -> mapM f l = Ok l.
Proof. intros H. induction l as [|x l IH]; [reflexivity|]. cbn. rewrite H. cbn. now rewrite IH. Qed.
Lemma strdup_same s : OSL_strdup s = s. Proof. now destruct s. Qed.
Lemma copy_ints_ok l : copy_ints l = Ok l.
Proof.
  unfold copy_ints. transitivity (brange 0 (zlength l) (fun i => y <- aget l i ;; Ok y)).
  - unfold brange. apply build_ext. intros i. now destruct (aget l i).
  - rewrite (brange_all (fun y => Ok y)). now apply mapM_id.
Qed.
Lemma copy_statements_ok x : copy_statements x = Ok (ir_statements x).
Proof. unfold copy_statements. rewrite brange_all. apply mapM_id. exact copy_ints_ok. Qed.
Lemma copy_predicate_ok x : copy_predicate x = Ok x.
Proof.
  unfold copy_predicate. rewrite (brange_all (fun s => Ok (OSL_strdup s))).
  rewrite mapM_id by (intros s; now rewrite strdup_same). cbn. rewrite strdup_same. now destruct x.
Qed.

(** ** Additions *)
(** Each call adds one element at the end of its list and leaves the rest as it was. *)
Theorem C48_add : forall (s : list (list Z)) (c e : list predicate) (i : list str) (b : str) (l : list Z),
  let x := Irregular s (zlength c) (zlength e) (c ++ e) in
  osl_irregular_add_control x i b = Ok (Irregular s (zlength c + 1) (zlength e) ((c ++ [given i b]) ++ e)) /\
  osl_irregular_add_exit x i b = Ok (Irregular s (zlength c) (zlength e + 1) (c ++ e ++ [given i b])) /\
  osl_irregular_add_predicates x l = Ok (Irregular (s ++ [l]) (zlength c) (zlength e) (c ++ e)).
Proof.
  intros s c e i b l x.
  assert (All : brange 0 (zlength c + zlength e) (fun i => y <- aget (c ++ e) i ;; copy_predicate y) = Ok (c ++ e)).
  { replace (zlength c + zlength e) with (zlength (c ++ e)) by (unfold zlength; rewrite app_length; lia). rewrite brange_all.
    apply mapM_id. exact copy_predicate_ok. }
  split; [|split].
  - unfold osl_irregular_add_control. rewrite copy_statements_ok. subst x. cbn [ir_statements ir_control ir_exit ir_predicates].
    assert (E1 : brange 0 (zlength c) (fun i => y <- aget (c ++ e) i ;; copy_predicate y) = Ok c).
    { transitivity (mapM copy_predicate c); [|apply mapM_id; exact copy_predicate_ok].
      rewrite <- (brange_map copy_predicate [] c e 0 (zlength c) 0) by (cbn; lia). unfold brange. apply build_ext. intros j. now rewrite Z.add_0_r. }
    assert (E2 : brange (zlength c + 1) (zlength c + 1 + zlength e) (fun i => y <- aget (c ++ e) (i - 1) ;; copy_predicate y) = Ok e).
    { transitivity (mapM copy_predicate e); [|apply mapM_id; exact copy_predicate_ok].
      rewrite <- (brange_map copy_predicate c e [] (zlength c + 1) (zlength c + 1 + zlength e) (-1)) by lia. unfold brange. apply build_ext.
      intros j. rewrite app_nil_r. reflexivity. }
    rewrite E1. cbn [bind]. rewrite E2. cbn [bind]. unfold given. now rewrite <- app_assoc.
  - unfold osl_irregular_add_exit. rewrite copy_statements_ok. subst x. cbn [ir_statements ir_control ir_exit ir_predicates].
    replace (zlength c + (zlength e + 1) - 1) with (zlength c + zlength e) by lia. rewrite All. cbn [bind]. unfold given. now rewrite <- app_assoc.
  - unfold osl_irregular_add_predicates. rewrite copy_statements_ok. subst x. cbn [ir_statements ir_control ir_exit ir_predicates].
    rewrite All. reflexivity.
Qed.
Print Assumptions C48_add.

(** Whatever the calls, the structure holds the controls, then the exits, then the predicates of the statements, each in the order given. *)
Theorem C48_history : forall (h : list call),
  performs h osl_irregular_malloc =
  Ok (Irregular (statements_of h) (Z.of_nat (List.length (controls h))) (Z.of_nat (List.length (exits h))) (controls h ++ exits h)).
Proof.
  assert (G : forall h s c e, performs h (Irregular s (zlength c) (zlength e) (c ++ e)) =
    Ok (Irregular (s ++ statements_of h) (zlength (c ++ controls h)) (zlength (e ++ exits h)) ((c ++ controls h) ++ e ++ exits h))).
  { induction h as [|[i b|i b|l] h IH]; intros s c e; cbn [performs perform].
    - cbn. now rewrite !app_nil_r.
    - destruct (C48_add s c e i b []) as (E & _). rewrite E. cbn [bind].
      replace (zlength c + 1) with (zlength (c ++ [given i b])) by (unfold zlength; rewrite app_length; cbn; lia).
      rewrite IH. cbn [controls exits statements_of flat_map app]. now rewrite <- !(app_assoc c).
    - destruct (C48_add s c e i b []) as (_ & E & _). rewrite E. cbn [bind].
      replace (zlength e + 1) with (zlength (e ++ [given i b])) by (unfold zlength; rewrite app_length; cbn; lia).
      rewrite IH. cbn [controls exits statements_of flat_map app]. now rewrite <- !(app_assoc e).
    - destruct (C48_add s c e [] [] l) as (_ & _ & E). rewrite E. cbn [bind].
      rewrite IH. cbn [controls exits statements_of flat_map app]. now rewrite <- !(app_assoc s). }
  intros h. apply (G h [] [] []).
Qed.
Print Assumptions C48_history.
Example C48_history_witness :
  performs [AddExit [lit "i"] (lit "A[i] == 0"); AddStatement [0; 1]; AddControl [lit "i"; lit "j"] (lit "i > j"); AddExit [] (lit "stop")] osl_irregular_malloc =
  Ok (Irregular [[0; 1]] 1 2 [Predicate [Some (lit "i"); Some (lit "j")] (Some (lit "i > j"));
                               Predicate [Some (lit "i")] (Some (lit "A[i] == 0")); Predicate [] (Some (lit "stop"))]).
Proof. reflexivity. Qed.

(** ** Clone *)
(** Without any predicate the copy has the same content. *)
Theorem C48_clone_no_predicate : forall s, osl_irregular_clone (Some (Irregular s 0 0 [])) = Ok (Some (Irregular s 0 0 [])) /\ osl_irregular_clone None = Ok None.
Proof. intros s. split; [|reflexivity]. unfold osl_irregular_clone. rewrite copy_statements_ok. reflexivity. Qed.
Print Assumptions C48_clone_no_predicate.
(** With one or more, the function writes outside an array, whatever the content. *)
Theorem C48_clone_refuted : forall x, consistent x -> ir_predicates x <> [] -> osl_irregular_clone (Some x) = UB.
Proof.
  intros x (C & E & L) N. unfold osl_irregular_clone. rewrite copy_statements_ok. cbn [bind]. rewrite <- L, brange_all.
  destruct (ir_predicates x) as [|y p]; [easy|]. cbn [mapM]. unfold clone_predicate at 1. rewrite (brange_all (fun s => Ok (OSL_strdup s))).
  rewrite mapM_id by (intros s; now rewrite strdup_same). cbn [bind].
  unfold aset. unfold zlength. rewrite Z.ltb_irrefl, andb_false_r. reflexivity.
Qed.
Print Assumptions C48_clone_refuted.
Example C48_clone_witness : let x := Irregular [[0]] 1 0 [Predicate [Some (lit "i")] (Some (lit "i > 0"))] in
  consistent x /\ ir_predicates x <> [] /\ osl_irregular_clone (Some x) = UB.
Proof. cbn. split; [|split; [discriminate|reflexivity]]. unfold consistent, zlength. cbn. lia. Qed.

(** ** Comparison *)
Definition present (x : irregular) : Prop :=
  Forall (fun p => pd_body p <> None /\ Forall (fun i => i <> None) (pd_iterators p)) (ir_predicates x).
Lemma strcmp_refl a : strcmp a a = 0.
Proof. induction a as [|c a IH]; [reflexivity|]. cbn. unfold ceqb. now rewrite Ascii.eqb_refl. Qed.
Lemma byte_pos c : 0 <= Z.of_nat (nat_of_ascii c) < 256.
Proof. pose proof (nat_ascii_bounded c). lia. Qed.
Definition no_nul (s : str) : Prop := Forall (fun c => c <> chr 0) s.
Lemma strcmp_zero a : forall b, no_nul a -> no_nul b -> strcmp a b = 0 -> a = b.
Proof.
  induction a as [|c a IH]; intros [|d b] Ha Hb; cbn [strcmp]; intros H; try reflexivity.
  - inversion Hb; subst. assert (nat_of_ascii d = 0)%nat as E by lia. destruct H2. rewrite <- (ascii_nat_embedding d), E. reflexivity.
  - inversion Ha; subst. assert (nat_of_ascii c = 0)%nat as E by lia. destruct H2. rewrite <- (ascii_nat_embedding c), E. reflexivity.
  - inversion Ha; inversion Hb; subst. unfold ceqb in H. destruct (Ascii.eqb_spec c d).
    + subst. f_equal. now apply IH.
    + destruct n. rewrite <- (ascii_nat_embedding c), <- (ascii_nat_embedding d). f_equal. lia.
Qed.
Lemma strcmp_iff a b : no_nul a -> no_nul b -> (strcmp a b =? 0) = true <-> a = b.
Proof. intros Ha Hb. rewrite Z.eqb_eq. split; [now apply strcmp_zero|]. intros ->. apply strcmp_refl. Qed.
(** C strings contain no NUL character. *)
Definition c_strings (x : irregular) : Prop :=
  Forall (fun p => (forall b, pd_body p = Some b -> no_nul b) /\ Forall (fun i => forall s, i = Some s -> no_nul s) (pd_iterators p)) (ir_predicates x).
(** As many iterators in the corresponding predicates. *)
Definition same_shape (x y : irregular) : Prop :=
  Forall2 (fun p q => zlength (pd_iterators p) = zlength (pd_iterators q)) (ir_predicates x) (ir_predicates y).

Definition p0 := Predicate [] None.
Lemma znth_In {A} (d : A) l i : 0 <= i < zlength l -> In (znth d l i) l.
Proof. intros H. unfold znth. apply nth_In. unfold zlength in H. lia. Qed.
Lemma predicate_ext p q : zlength (pd_iterators p) = zlength (pd_iterators q) -> pd_body p = pd_body q ->
  (forall j, 0 <= j < zlength (pd_iterators p) -> znth None (pd_iterators p) j = znth None (pd_iterators q) j) -> p = q.
Proof.
  destruct p as [i b], q as [j c]. cbn. intros L -> H. f_equal. apply (nth_ext _ _ None None); [unfold zlength in L; lia|].
  intros n Hn. specialize (H (Z.of_nat n)). unfold znth in H. rewrite Nat2Z.id in H. apply H. unfold zlength. lia.
Qed.
Definition predicate_eq_dec (p q : predicate) : {p = q} + {p <> q}.
Proof. decide equality; repeat (decide equality). Defined.

(** On structures of the same shape, the function answers whether controls, exits and the number of predicates of each statement are the
    same: which predicates guard a statement is not compared. *)
Theorem C48_equal_same_shape : forall x y, consistent x -> consistent y -> present x -> present y -> c_strings x -> c_strings y ->
  (ir_control x = ir_control y -> ir_exit x = ir_exit y -> same_shape x y) ->
  exists b, osl_irregular_equal x y = Ok b /\
    (b = true <-> ir_control x = ir_control y /\ ir_exit x = ir_exit y /\ ir_predicates x = ir_predicates y /\
       map (@List.length Z) (ir_statements x) = map (@List.length Z) (ir_statements y)).
Proof.
  intros x y (Cx & Ex & Lx) (Cy & Ey & Ly) Px Py Sx Sy Sh. unfold osl_irregular_equal.
  destruct (Z.eqb_spec (zlength (ir_statements x)) (zlength (ir_statements y))) as [Ls|Ls]; cbn [negb orb].
  2:{ exists false. split; [reflexivity|]. split; [discriminate|]. intros (_ & _ & _ & H). apply (f_equal (@List.length nat)) in H.
      rewrite !map_length in H. unfold zlength in Ls. lia. }
  destruct (Z.eqb_spec (ir_control x) (ir_control y)) as [Ec|Ec]; cbn [negb orb].
  2:{ exists false. split; [reflexivity|]. split; [discriminate|]. now intros (? & _). }
  destruct (Z.eqb_spec (ir_exit x) (ir_exit y)) as [Ee|Ee]; cbn [negb orb].
  2:{ exists false. split; [reflexivity|]. split; [discriminate|]. now intros (_ & ? & _). }
  specialize (Sh Ec Ee).
  destruct (cforall_dec 0 (zlength (ir_statements x)) (fun i => a <- aget (ir_statements x) i ;; b <- aget (ir_statements y) i ;; Ok (zlength a =? zlength b))
    (fun i => zlength (znth [] (ir_statements x) i) =? zlength (znth [] (ir_statements y) i))) as (same & Es & Hs).
  { intros i Hi. rewrite !(aget_ok []) by lia. reflexivity. }
  rewrite Es. cbn [bind].
  assert (Hs' : same = true <-> map (@List.length Z) (ir_statements x) = map (@List.length Z) (ir_statements y)).
  { rewrite Hs. split; intros H.
    - apply (nth_ext _ _ 0%nat 0%nat); rewrite !map_length; [unfold zlength in Ls; lia|]. intros n Hn.
      change 0%nat with (@List.length Z []). rewrite !map_nth. specialize (H (Z.of_nat n)). unfold znth in H. rewrite Nat2Z.id in H.
      apply Z.eqb_eq in H; [unfold zlength in H; lia|]. unfold zlength. lia.
    - intros i Hi. apply Z.eqb_eq. unfold zlength, znth. f_equal.
      apply (f_equal (fun l => nth (Z.to_nat i) l 0%nat)) in H. change 0%nat with (@List.length Z []) in H. now rewrite !map_nth in H. }
  destruct same; cbn [negb].
  2:{ exists false. split; [reflexivity|]. split; [discriminate|]. intros (_ & _ & _ & H). now apply Hs' in H. }
  destruct (cforall_dec 0 (ir_control x + ir_exit x) (fun i =>
      a <- aget (ir_predicates x) i ;; b <- aget (ir_predicates y) i ;;
      c <- strcmp_ptr (pd_body a) (pd_body b) ;;
      let comp := (if zlength (pd_iterators a) =? zlength (pd_iterators b) then 0 else 1) + c in
      if negb (comp =? 0) then Ok false
      else cforall 0 (zlength (pd_iterators a)) (fun j =>
        s <- aget (pd_iterators a) j ;; t <- aget (pd_iterators b) j ;; d <- strcmp_ptr s t ;; Ok (d =? 0)))
    (fun i => if predicate_eq_dec (znth p0 (ir_predicates x) i) (znth p0 (ir_predicates y) i) then true else false)) as (b & Eb & Hb).
  { intros i Hi. assert (Hx : 0 <= i < zlength (ir_predicates x)) by lia. assert (Hy : 0 <= i < zlength (ir_predicates y)) by lia.
    rewrite !(aget_ok p0) by lia. cbn [bind].
    set (p := znth p0 (ir_predicates x) i). set (q := znth p0 (ir_predicates y) i).
    assert (Lpq : zlength (pd_iterators p) = zlength (pd_iterators q)).
    { unfold p, q, znth. assert (G : forall n l m, Forall2 (fun p q => zlength (pd_iterators p) = zlength (pd_iterators q)) l m ->
        zlength (pd_iterators (nth n l p0)) = zlength (pd_iterators (nth n m p0))).
      { induction n as [|n IH]; intros l m F; destruct F; cbn; auto. }
      now apply G. }
    pose proof (proj1 (Forall_forall _ _) Px p (znth_In _ _ _ Hx)) as [Bp Ip]. pose proof (proj1 (Forall_forall _ _) Py q (znth_In _ _ _ Hy)) as [Bq Iq].
    pose proof (proj1 (Forall_forall _ _) Sx p (znth_In _ _ _ Hx)) as [Np Mp]. pose proof (proj1 (Forall_forall _ _) Sy q (znth_In _ _ _ Hy)) as [Nq Mq].
    destruct (pd_body p) as [s|] eqn:Es'; [|easy]. destruct (pd_body q) as [t|] eqn:Et; [|easy]. cbn [strcmp_ptr bind].
    rewrite Lpq, Z.eqb_refl, Z.add_0_l.
    pose proof (strcmp_iff s t (Np _ eq_refl) (Nq _ eq_refl)) as St.
    destruct (strcmp s t =? 0); cbn [negb].
    2:{ destruct (predicate_eq_dec p q) as [E|E]; [|reflexivity]. exfalso. assert (T : false = true) by (apply St; congruence). discriminate. }
    assert (s = t) by (now apply St). subst t.
    destruct (cforall_dec 0 (zlength (pd_iterators q)) (fun j => s <- aget (pd_iterators p) j ;; t <- aget (pd_iterators q) j ;; d <- strcmp_ptr s t ;; Ok (d =? 0))
      (fun j => match znth None (pd_iterators p) j, znth None (pd_iterators q) j with Some s, Some t => strcmp s t =? 0 | _, _ => false end)) as (b & Eb & Hb).
    { intros j Hj. assert (Hj' : 0 <= j < zlength (pd_iterators p)) by (rewrite Lpq; exact Hj). rewrite !(aget_ok None) by assumption. cbn [bind].
      pose proof (proj1 (Forall_forall _ _) Ip _ (znth_In None _ j Hj')) as N1. pose proof (proj1 (Forall_forall _ _) Iq _ (znth_In None _ j Hj)) as N2.
      cbn beta in N1, N2. destruct (znth None (pd_iterators p) j); [|easy]. destruct (znth None (pd_iterators q) j); [|easy]. reflexivity. }
    rewrite Eb. f_equal. destruct (predicate_eq_dec p q) as [E|E].
    - apply Hb. intros j Hj. rewrite E in *. pose proof (proj1 (Forall_forall _ _) Iq _ (znth_In None _ j Hj)) as N2. cbn beta in N2.
      destruct (znth None (pd_iterators q) j); [|easy]. apply Z.eqb_eq, strcmp_refl.
    - destruct b; [|reflexivity]. destruct E. apply predicate_ext; [assumption|congruence|]. intros j Hj'. assert (Hj : 0 <= j < zlength (pd_iterators q)) by (rewrite <- Lpq; exact Hj').
      pose proof (proj1 Hb eq_refl j Hj) as T. cbn beta in T.
      pose proof (proj1 (Forall_forall _ _) Mp _ (znth_In None _ j Hj')) as N1. pose proof (proj1 (Forall_forall _ _) Mq _ (znth_In None _ j Hj)) as N2.
      cbn beta in N1, N2.
      destruct (znth None (pd_iterators p) j) as [s1|]; [|easy]. destruct (znth None (pd_iterators q) j) as [s2|]; [|easy].
      f_equal. apply strcmp_iff; auto. }
  exists b. split; [exact Eb|]. rewrite Hb. split.
  - intros H. split; [exact Ec|]. split; [exact Ee|]. split; [|now apply Hs'].
    apply (nth_ext _ _ p0 p0); [unfold zlength in *; lia|]. intros n Hn. specialize (H (Z.of_nat n)). unfold znth in H. rewrite Nat2Z.id in H.
    destruct (predicate_eq_dec (nth n (ir_predicates x) p0) (nth n (ir_predicates y) p0)); [assumption|]. unfold zlength in *. discriminate H. lia.
  - intros (_ & _ & E & _) i Hi. rewrite E. now destruct predicate_eq_dec.
Qed.
Print Assumptions C48_equal_same_shape.

(** Two structures with different guards compare equal; so do two whose predicates differ in body and in number of iterators, the two
    differences cancelling each other. *)
Theorem C48_equal_refuted : exists x y x' y', consistent x /\ consistent y /\ consistent x' /\ consistent y' /\
  ir_statements x <> ir_statements y /\ osl_irregular_equal x y = Ok true /\
  ir_predicates x' <> ir_predicates y' /\ osl_irregular_equal x' y' = Ok true.
Proof.
  pose (p := Predicate [] (Some (lit "a"))). pose (q := Predicate [Some (lit "i")] (Some (lit "b"))).
  exists (Irregular [[0]] 1 1 [p; p]), (Irregular [[1]] 1 1 [p; p]), (Irregular [] 1 0 [p]), (Irregular [] 1 0 [q]).
  unfold consistent, zlength. cbn. repeat split; try lia; discriminate.
Qed.
Print Assumptions C48_equal_refuted.
Example C48_equal_witness : let x := Irregular [[0]; [0; 1]] 1 1 [Predicate [Some (lit "i")] (Some (lit "i > 0")); Predicate [] (Some (lit "stop"))] in
  consistent x /\ present x /\ same_shape x x /\ osl_irregular_equal x x = Ok true /\
  osl_irregular_equal x (Irregular [[0]; [0; 1]] 1 1 [Predicate [Some (lit "j")] (Some (lit "i > 0")); Predicate [] (Some (lit "stop"))]) = Ok false.
Proof.
  cbn. split; [unfold consistent, zlength; cbn; lia|]. split; [|split; [|split; reflexivity]].
  - repeat constructor; discriminate.
  - repeat constructor.
Qed.

(** ** Printing and reading *)
(** The text of a structure: the statements, then the numbers of controls and exits, then the predicates. *)
Definition statement_text (l : list Z) : str := num (zlength l) ++ concat (map num l) ++ [c_nl].
Definition predicate_text (x : predicate) : str :=
  num (zlength (pd_iterators x)) ++ concat (map (fun i => pr i ++ [c_sp]) (pd_iterators x)) ++ c_nl :: pr (pd_body x) ++ [c_nl].
Definition irregular_text (x : irregular) : str :=
  c_nl :: print_Z (zlength (ir_statements x)) ++ c_nl :: concat (map statement_text (ir_statements x)) ++
  lnZ (ir_control x) ++ lnZ (ir_exit x) ++ concat (map predicate_text (ir_predicates x)).

Lemma zl_app {A} (a b : list A) : zlength (a ++ b) = zlength a + zlength b.
Proof. unfold zlength. rewrite app_length. lia. Qed.
Lemma zl_nonneg {A} (l : list A) : 0 <= zlength l. Proof. unfold zlength. lia. Qed.
Lemma put_ok N t u : zlength (t ++ u) < N -> put (Pbuf N t) u = Ok (Pbuf N (t ++ u)).
Proof. intros H. unfold put, printf_in_buf. cbn [pb_size pb_text]. rewrite zl_app in H. destruct (Z.ltb_spec (zlength u) (N - zlength t)); [reflexivity|lia]. Qed.
Lemma put_newline_ok N t : zlength (t ++ [c_nl]) < N -> put_newline (Pbuf N t) = Ok (Pbuf N (t ++ [c_nl])).
Proof. intros H. unfold put_newline, printf_in_buf. cbn [pb_size pb_text]. rewrite zl_app in H. destruct (Z.ltb_spec (zlength [c_nl]) (N - zlength t)); [reflexivity|lia]. Qed.
Lemma puts_ok N l : forall t, zlength (t ++ concat l) < N -> puts l (Pbuf N t) = Ok (Pbuf N (t ++ concat l)).
Proof.
  induction l as [|u l IH]; intros t H; cbn [puts concat] in *; [now rewrite app_nil_r|]. rewrite app_assoc in H |- *.
  rewrite put_ok by (rewrite zl_app in H; pose proof (zl_nonneg (concat l)); lia). cbn [bind]. now apply IH.
Qed.
Lemma print_statement_ok N l t : zlength (t ++ statement_text l) < N -> print_statement l (Pbuf N t) = Ok (Pbuf N (t ++ statement_text l)).
Proof.
  unfold statement_text, print_statement. intros H. rewrite !zl_app in H. pose proof (zl_nonneg (concat (map num l))). pose proof (zl_nonneg [c_nl]).
  rewrite put_ok by (rewrite zl_app; lia). cbn [bind]. rewrite puts_ok by (rewrite !zl_app; lia). cbn [bind].
  rewrite put_newline_ok by (rewrite !zl_app; lia). now rewrite <- !app_assoc.
Qed.
Lemma print_predicate_ok N x t : zlength (t ++ predicate_text x) < N -> print_predicate x (Pbuf N t) = Ok (Pbuf N (t ++ predicate_text x)).
Proof.
  unfold predicate_text, print_predicate. intros H. rewrite !zl_app in H. set (m := concat _) in *.
  pose proof (zl_nonneg m). pose proof (zl_nonneg (c_nl :: pr (pd_body x) ++ [c_nl])).
  rewrite put_ok by (rewrite zl_app; lia). cbn [bind]. rewrite puts_ok by (fold m; rewrite !zl_app; lia). cbn [bind]. fold m.
  rewrite put_ok by (rewrite !zl_app; lia). now rewrite <- !app_assoc.
Qed.
Lemma print_statements_ok N l : forall t, zlength (t ++ concat (map statement_text l)) < N ->
  print_statements l (Pbuf N t) = Ok (Pbuf N (t ++ concat (map statement_text l))).
Proof.
  induction l as [|u l IH]; intros t H; cbn [print_statements map concat] in *; [now rewrite app_nil_r|]. rewrite app_assoc in H |- *.
  rewrite print_statement_ok by (rewrite zl_app in H; pose proof (zl_nonneg (concat (map statement_text l))); lia). cbn [bind]. now apply IH.
Qed.
Lemma print_predicates_ok N (pre mid post : list predicate) lo hi d : forall t, lo + d = zlength pre -> hi - lo = zlength mid ->
  zlength (t ++ concat (map predicate_text mid)) < N ->
  cfor lo hi (fun i b => y <- aget (pre ++ mid ++ post) (i + d) ;; print_predicate y b) (Pbuf N t) =
  Ok (Pbuf N (t ++ concat (map predicate_text mid))).
Proof.
  revert pre lo. induction mid as [|m mid IH]; intros pre lo t H1 H2 H; cbn [map concat] in *.
  - rewrite cfor_empty by (cbn in H2; lia). now rewrite app_nil_r.
  - rewrite cfor_step by (unfold zlength in H2; cbn in H2; lia).
    assert (E : aget (pre ++ (m :: mid) ++ post) (lo + d) = Ok m).
    { unfold aget. rewrite H1. unfold zlength. destruct (Z.ltb_spec (Z.of_nat (List.length pre)) 0); [lia|].
      rewrite Nat2Z.id, nth_error_app2 by lia. now rewrite Nat.sub_diag. }
    rewrite E. cbn [bind]. rewrite (app_assoc t) in H |- *.
    rewrite print_predicate_ok by (rewrite zl_app in H; pose proof (zl_nonneg (concat (map predicate_text mid))); lia). cbn [bind].
    specialize (IH (pre ++ [m]) (lo + 1)). rewrite <- app_assoc in IH. cbn [app] in IH |- *. apply IH; [rewrite zl_app; change (zlength [m]) with 1; lia| |exact H].
    unfold zlength in *. cbn [List.length] in H2. lia.
Qed.

(** The newline that closes the guards of a statement is the only text that makes the buffer grow without harm. *)
Lemma print_statement_grow N l t : zlength (t ++ statement_text l) = N -> print_statement l (Pbuf N t) = Ok (Pbuf (N * 2) (t ++ statement_text l)).
Proof.
  unfold statement_text, print_statement. intros H. rewrite !zl_app in H. pose proof (zl_nonneg (concat (map num l))). change (zlength [c_nl]) with 1 in H.
  pose proof (zl_nonneg (num (zlength l))). pose proof (zl_nonneg t).
  rewrite put_ok by (rewrite zl_app; lia). cbn [bind]. rewrite puts_ok by (rewrite !zl_app; lia). cbn [bind].
  unfold put_newline, printf_in_buf. cbn [pb_size pb_text]. rewrite !zl_app. change (zlength [c_nl]) with 1.
  destruct (Z.ltb_spec 1 (N - (zlength t + zlength (num (zlength l)) + zlength (concat (map num l))))); [lia|].
  destruct (Z.ltb_spec 1 (N * 2 - (zlength t + zlength (num (zlength l)) + zlength (concat (map num l))))); [|lia]. now rewrite <- !app_assoc.
Qed.
Lemma print_statements_app l1 : forall l2 b, print_statements (l1 ++ l2) b = bind (print_statements l1 b) (print_statements l2).
Proof. induction l1 as [|x l1 IH]; intros l2 b; cbn [print_statements app]; [reflexivity|]. destruct (print_statement x b); cbn [bind]; auto. Qed.

Lemma print_tail N x : consistent x -> forall pre, let text := pre ++ lnZ (ir_control x) ++ lnZ (ir_exit x) ++ concat (map predicate_text (ir_predicates x)) in
  zlength text < N ->
  (b <- put (Pbuf N pre) (lnZ (ir_control x)) ;;
   b <- put b (lnZ (ir_exit x)) ;;
   b <- cfor 0 (ir_control x) (fun i b => y <- aget (ir_predicates x) i ;; print_predicate y b) b ;;
   b <- cfor 0 (ir_exit x) (fun i b => y <- aget (ir_predicates x) (ir_control x + i) ;; print_predicate y b) b ;;
   Ok (Some (lit "<irregular>" ++ pb_text b ++ ln (lit "</irregular>")))) =
  Ok (Some (lit "<irregular>" ++ text ++ lit "</irregular>" ++ [c_nl])).
Proof.
  intros (C & E & L) pre text H. unfold text in *. clear text.
  set (c := firstn (Z.to_nat (ir_control x)) (ir_predicates x)). set (e := skipn (Z.to_nat (ir_control x)) (ir_predicates x)).
  assert (P : ir_predicates x = c ++ e) by (symmetry; apply firstn_skipn).
  assert (Lc : zlength c = ir_control x). { unfold c, zlength. rewrite firstn_length. unfold zlength in L. lia. }
  assert (Le : zlength e = ir_exit x). { rewrite P, zl_app in L. lia. }
  assert (T : concat (map predicate_text (ir_predicates x)) = concat (map predicate_text c) ++ concat (map predicate_text e)) by (rewrite P at 1; now rewrite map_app, concat_app).
  rewrite T in H |- *. clear T. rewrite !zl_app in H.
  pose proof (zl_nonneg (lnZ (ir_control x))). pose proof (zl_nonneg (lnZ (ir_exit x))).
  pose proof (zl_nonneg (concat (map predicate_text c))). pose proof (zl_nonneg (concat (map predicate_text e))).
  rewrite put_ok by (rewrite !zl_app; lia). cbn [bind].
  rewrite put_ok by (rewrite !zl_app; lia). cbn [bind].
  assert (E1 : forall t, zlength (t ++ concat (map predicate_text c)) < N ->
    cfor 0 (ir_control x) (fun i b => y <- aget (ir_predicates x) i ;; print_predicate y b) (Pbuf N t) = Ok (Pbuf N (t ++ concat (map predicate_text c)))).
  { intros t Ht. rewrite <- (print_predicates_ok N [] c e 0 (ir_control x) 0) by (try rewrite Lc; cbn; lia || assumption).
    apply cfor_ext. intros i b _. now rewrite Z.add_0_r, P. }
  assert (E2 : forall t, zlength (t ++ concat (map predicate_text e)) < N ->
    cfor 0 (ir_exit x) (fun i b => y <- aget (ir_predicates x) (ir_control x + i) ;; print_predicate y b) (Pbuf N t) = Ok (Pbuf N (t ++ concat (map predicate_text e)))).
  { intros t Ht. rewrite <- (print_predicates_ok N c e [] 0 (ir_exit x) (ir_control x)) by (lia || assumption).
    apply cfor_ext. intros i b _. now rewrite Z.add_comm, app_nil_r, P. }
  rewrite E1 by (rewrite !zl_app; lia). cbn [bind]. rewrite E2 by (rewrite !zl_app; lia). cbn [bind pb_text].
  unfold ln. now rewrite <- !app_assoc.
Qed.
Lemma text_split x : irregular_text x = (c_nl :: print_Z (zlength (ir_statements x)) ++ [c_nl]) ++ concat (map statement_text (ir_statements x)) ++
    lnZ (ir_control x) ++ lnZ (ir_exit x) ++ concat (map predicate_text (ir_predicates x)).
Proof. unfold irregular_text. cbn [app]. now rewrite <- app_assoc. Qed.
(** A structure whose text is shorter than 2048 characters is printed between the tags of the extension. *)
Theorem C48_print : forall x, consistent x -> Z.of_nat (List.length (irregular_text x)) < 2048 ->
  osl_irregular_sprint (Some x) = Ok (Some (lit "<irregular>" ++ irregular_text x ++ lit "</irregular>" ++ [c_nl])).
Proof.
  intros x Hx H. change (zlength (irregular_text x) < 2048) in H. unfold osl_irregular_sprint.
  rewrite text_split in H |- *. set (A := c_nl :: print_Z (zlength (ir_statements x)) ++ [c_nl]) in *. set (S1 := concat (map statement_text (ir_statements x))) in *.
  set (T := lnZ (ir_control x) ++ lnZ (ir_exit x) ++ concat (map predicate_text (ir_predicates x))) in *.
  rewrite !zl_app in H. pose proof (zl_nonneg S1). pose proof (zl_nonneg T).
  rewrite put_ok by (rewrite zl_app; change (zlength (@nil ascii)) with 0; lia). cbn [bind app].
  rewrite print_statements_ok by (rewrite zl_app; fold S1; lia). cbn [bind]. fold S1.
  rewrite (app_assoc A S1 T). apply (print_tail 2048 x Hx (A ++ S1)). fold T. rewrite !zl_app. lia.
Qed.
(** So is one whose text is shorter than 4096, when the newline of one of its statements is the 2048th character: the buffer is doubled. *)
Theorem C48_print_grows : forall x l1 l l2, consistent x -> ir_statements x = l1 ++ l :: l2 ->
  List.length (c_nl :: print_Z (zlength (ir_statements x)) ++ c_nl :: concat (map statement_text (l1 ++ [l]))) = 2048%nat ->
  Z.of_nat (List.length (irregular_text x)) < 4096 ->
  osl_irregular_sprint (Some x) = Ok (Some (lit "<irregular>" ++ irregular_text x ++ lit "</irregular>" ++ [c_nl])).
Proof.
  intros x l1 l l2 Hx E G H. change (zlength (irregular_text x) < 4096) in H. unfold osl_irregular_sprint.
  rewrite text_split in H |- *. set (A := c_nl :: print_Z (zlength (ir_statements x)) ++ [c_nl]) in *.
  set (T := lnZ (ir_control x) ++ lnZ (ir_exit x) ++ concat (map predicate_text (ir_predicates x))) in *.
  assert (G' : zlength (A ++ concat (map statement_text l1) ++ statement_text l) = 2048).
  { unfold zlength, A. rewrite map_app, concat_app in G. cbn [map concat app] in G. rewrite app_nil_r in G. cbn [app]. rewrite <- app_assoc. cbn [app]. lia. }
  rewrite E in H |- *. rewrite map_app, concat_app in *. cbn [map concat] in *. set (S1 := concat (map statement_text l1)) in *. set (S2 := concat (map statement_text l2)) in *.
  rewrite !zl_app in H. rewrite !zl_app in G'. pose proof (zl_nonneg S1). pose proof (zl_nonneg S2). pose proof (zl_nonneg T). pose proof (zl_nonneg A).
  assert (0 < zlength (statement_text l)). { unfold statement_text. rewrite !zl_app. change (zlength [c_nl]) with 1. pose proof (zl_nonneg (num (zlength l))). pose proof (zl_nonneg (concat (map num l))). lia. }
  rewrite put_ok by (rewrite zl_app; change (zlength (@nil ascii)) with 0; lia). cbn [bind app].
  rewrite print_statements_app, (print_statements_ok 2048 l1) by (rewrite zl_app; fold S1; lia). cbn [bind print_statements]. fold S1.
  rewrite print_statement_grow by (rewrite !zl_app; lia). cbn [bind]. change (2048 * 2) with 4096.
  rewrite print_statements_ok by (fold S2; rewrite !zl_app; lia). cbn [bind]. fold S2.
  replace (A ++ (S1 ++ statement_text l ++ S2) ++ T) with ((((A ++ S1) ++ statement_text l) ++ S2) ++ T) by now rewrite <- !app_assoc.
  apply (print_tail 4096 x Hx). fold T. rewrite !zl_app. lia.
Qed.
Print Assumptions C48_print_grows.
Example C48_print_grows_witness : let x := Irregular [77 :: repeat 7 1018] 0 0 [] in consistent x /\
  List.length (c_nl :: print_Z (zlength (ir_statements x)) ++ c_nl :: concat (map statement_text ([] ++ [77 :: repeat 7 1018]))) = 2048%nat.
Proof. split; [unfold consistent, zlength; cbn; lia|]. vm_compute. reflexivity. Qed.
Print Assumptions C48_print.
(** Longer texts reuse an exhausted argument list: one long body is enough. *)
Theorem C48_print_long_refuted : forall body, 2048 <= Z.of_nat (List.length body) ->
  osl_irregular_sprint (Some (Irregular [] 1 0 [Predicate [] (Some body)])) = UB.
Proof.
  intros body H. unfold osl_irregular_sprint. cbn [ir_statements ir_control ir_exit ir_predicates].
  rewrite put_ok by (cbn; lia). cbn [bind print_statements app]. rewrite put_ok by (cbn; lia). cbn [bind]. rewrite put_ok by (cbn; lia). cbn [bind].
  rewrite cfor_step by lia. change (aget _ 0) with (Ok (Predicate [] (Some body))). cbn [bind]. unfold print_predicate.
  rewrite put_ok by (cbn; lia). cbn [bind map puts pd_iterators pd_body pr]. unfold put, printf_in_buf. cbn [pb_size pb_text].
  set (q := zlength (_ ++ num _)). assert (0 <= q) by apply zl_nonneg.
  destruct (Z.ltb_spec (zlength (c_nl :: body ++ [c_nl])) (2048 - q)) as [G|G]; [|reflexivity].
  exfalso. change (c_nl :: body ++ [c_nl]) with ([c_nl] ++ body ++ [c_nl]) in G. rewrite !zl_app in G. change (zlength [c_nl]) with 1 in G. unfold zlength in G. lia.
Qed.
Print Assumptions C48_print_long_refuted.

Lemma plain_digits v : Forall (fun c => negb (by_words c) = true) (print_Z v).
Proof.
  assert (D : forall n, 0 <= n -> Forall (fun c => negb (by_words c) = true) (print_nat_Z n)).
  { intros n Hn. destruct (print_nat_ok n Hn) as (Hd & _). eapply Forall_impl; [|exact Hd]. cbn beta. intros c Hc. unfold by_words, ceqb.
    destruct (Ascii.eqb_spec c c_sp); [subst; discriminate|]. destruct (Ascii.eqb_spec c c_nl); [subst; discriminate|reflexivity]. }
  unfold print_Z. destruct (Z.ltb_spec v 0); [constructor; [reflexivity|apply D; lia]|apply D; lia].
Qed.
Lemma next_int_ok d v c rest : Forall (fun c => by_words c = true) d -> by_words c = true -> c_int v ->
  next_int (d ++ print_Z v ++ c :: rest) = Ok (v, rest).
Proof.
  intros Hd Hc Hv. unfold next_int, strtok. rewrite span_skip by exact Hd.
  assert (N : head_not by_words (print_Z v ++ c :: rest)).
  { pose proof (plain_digits v) as F. pose proof (print_Z_nonempty v). destruct (print_Z v) as [|z l]; [easy|]. inversion F; subst. cbn. now apply negb_true_iff. }
  rewrite (span_nohead by_words _ N). cbn [snd].
  rewrite (span_exact _ (print_Z v) (c :: rest) (plain_digits v)) by (cbn; now rewrite Hc).
  pose proof (print_Z_nonempty v). destruct (print_Z v) as [|z l] eqn:E; [easy|]. rewrite <- E.
  unfold atoi. pose proof (scan_print_nospace v [] I) as S. rewrite app_nil_r in S. rewrite S.
  unfold fits. unfold c_int in Hv. destruct (_ && _) eqn:B; [reflexivity|]. exfalso. cbn in B. lia.
Qed.
Definition numbers_ok (x : irregular) : Prop :=
  c_int (zlength (ir_statements x)) /\ c_int (ir_control x) /\ c_int (ir_exit x) /\
  Forall (fun l => c_int (zlength l) /\ Forall c_int l) (ir_statements x).
Lemma next_count_ok d v c rest : Forall (fun c => by_words c = true) d -> by_words c = true -> c_int v -> 0 <= v ->
  next_count (d ++ print_Z v ++ c :: rest) = Ok (Z.to_nat v, rest).
Proof. intros Hd Hc Hv Hp. unfold next_count. rewrite next_int_ok by assumption. cbn [bind]. destruct (Z.ltb_spec v 0); [lia|reflexivity]. Qed.
Lemma next_int_ok0 v c rest : by_words c = true -> c_int v -> next_int (print_Z v ++ c :: rest) = Ok (v, rest).
Proof. intros Hc Hv. exact (next_int_ok [] v c rest (Forall_nil _) Hc Hv). Qed.
Lemma next_count_ok0 v c rest : by_words c = true -> c_int v -> 0 <= v -> next_count (print_Z v ++ c :: rest) = Ok (Z.to_nat v, rest).
Proof. intros Hc Hv. exact (next_count_ok [] v c rest (Forall_nil _) Hc Hv). Qed.
Lemma next_count_ok1 v c rest : by_words c = true -> c_int v -> 0 <= v -> next_count (c_nl :: print_Z v ++ c :: rest) = Ok (Z.to_nat v, rest).
Proof. intros Hc Hv. refine (next_count_ok [c_nl] v c rest _ Hc Hv). now repeat constructor. Qed.
Lemma next_ints_ok l : forall rest, Forall c_int l -> next_ints (List.length l) (concat (map num l) ++ rest) = Ok (l, rest).
Proof.
  induction l as [|v l IH]; intros rest F; [reflexivity|]. inversion F; subst. cbn [List.length next_ints map concat]. unfold num at 1.
  rewrite <- !app_assoc. cbn [app]. rewrite next_int_ok0 by (reflexivity || assumption). cbn [bind]. now rewrite IH.
Qed.
Lemma next_statements_ok l : forall d rest, Forall (fun c => by_words c = true) d -> Forall (fun l => c_int (zlength l) /\ Forall c_int l) l ->
  exists d', Forall (fun c => by_words c = true) d' /\
  next_statements (List.length l) (d ++ concat (map statement_text l) ++ rest) = Ok (l, d' ++ rest).
Proof.
  induction l as [|x l IH]; intros d rest Hd F; [exists d; split; [assumption|reflexivity]|]. inversion F as [|a b [H1 H2] H3]; subst.
  cbn [List.length next_statements map concat]. unfold statement_text at 1. unfold num at 1. rewrite <- !app_assoc. cbn [app].
  rewrite next_count_ok; [|assumption|reflexivity|assumption|apply zl_nonneg]. cbn [bind]. unfold zlength at 1. rewrite Nat2Z.id.
  rewrite next_ints_ok by assumption. cbn [bind]. destruct (IH [c_nl] rest) as (d' & D & E); [now repeat constructor|assumption|].
  exists d'. split; [assumption|]. cbn [app] in E. rewrite E. reflexivity.
Qed.
Lemma sread_start x rest : numbers_ok x -> 0 <= ir_control x -> 0 <= ir_exit x -> c_int (ir_control x + ir_exit x) ->
  zlength (c_nl :: print_Z (zlength (ir_statements x)) ++ c_nl :: concat (map statement_text (ir_statements x)) ++ lnZ (ir_control x) ++ lnZ (ir_exit x) ++ rest) <= 2048 ->
  osl_irregular_sread (Some (c_nl :: print_Z (zlength (ir_statements x)) ++ c_nl :: concat (map statement_text (ir_statements x)) ++
    lnZ (ir_control x) ++ lnZ (ir_exit x) ++ rest)) =
  ('(p, s) <- next_predicates (Z.to_nat (ir_control x + ir_exit x)) rest ;; Ok (Some (Irregular (ir_statements x) (ir_control x) (ir_exit x) p))).
Proof.
  intros (N1 & N2 & N3 & N4) C E I H. unfold osl_irregular_sread. destruct (Z.ltb_spec 2048 (zlength (c_nl :: print_Z (zlength (ir_statements x)) ++
    c_nl :: concat (map statement_text (ir_statements x)) ++ lnZ (ir_control x) ++ lnZ (ir_exit x) ++ rest))); [lia|].
  rewrite next_count_ok1; [|reflexivity|assumption|apply zl_nonneg].
  cbn [bind]. unfold zlength at 1. rewrite Nat2Z.id.
  destruct (next_statements_ok (ir_statements x) [] (lnZ (ir_control x) ++ lnZ (ir_exit x) ++ rest)) as (d & D & S); [constructor|assumption|].
  cbn [app] in S. rewrite S. cbn [bind]. unfold lnZ at 1. rewrite <- app_assoc. cbn [app].
  rewrite next_int_ok by (assumption || reflexivity). cbn [bind]. unfold lnZ at 1. rewrite <- app_assoc. cbn [app].
  rewrite next_int_ok0 by (assumption || reflexivity). cbn [bind].
  replace (fits 32 (ir_control x + ir_exit x)) with true by (symmetry; unfold fits, c_int in *; cbn; lia). cbn [negb].
  destruct (Z.ltb_spec (ir_control x + ir_exit x) 0); [lia|]. reflexivity.
Qed.

(** Without predicates, the text between the tags is read back. *)
Theorem C48_roundtrip_no_predicate : forall s, let x := Irregular s 0 0 [] in
  numbers_ok x -> Z.of_nat (List.length (irregular_text x)) < 2048 ->
  exists text, osl_irregular_sprint (Some x) = Ok (Some (lit "<irregular>" ++ text ++ lit "</irregular>" ++ [c_nl])) /\
    osl_irregular_sread (Some text) = Ok (Some x).
Proof.
  intros s x N H. exists (irregular_text x). split; [apply C48_print; [unfold consistent; cbn; lia|exact H]|].
  unfold irregular_text. subst x. rewrite (sread_start (Irregular s 0 0 [])).
  - cbn [ir_control ir_exit]. change (Z.to_nat (0 + 0)) with 0%nat. cbn [next_predicates ir_predicates bind]. reflexivity.
  - exact N.
  - cbn. lia.
  - cbn. lia.
  - cbn. unfold c_int. lia.
  - apply Z.lt_le_incl. exact H.
Qed.
Print Assumptions C48_roundtrip_no_predicate.
Example C48_roundtrip_witness : numbers_ok (Irregular [[3; -1]; []] 0 0 []) /\
  osl_irregular_sread (Some (irregular_text (Irregular [[3; -1]; []] 0 0 []))) = Ok (Some (Irregular [[3; -1]; []] 0 0 [])).
Proof. split; [|vm_compute; reflexivity]. unfold numbers_ok, c_int, zlength. cbn. repeat split; try lia. repeat constructor; cbn; lia. Qed.

(** One predicate without iterators cannot be read back, whatever its body: the body is skipped and the end of the text read instead. *)
Theorem C48_read_refuted : forall s body, let x := Irregular s 1 0 [Predicate [] (Some body)] in
  numbers_ok x -> Z.of_nat (List.length (irregular_text x)) < 2048 -> body <> [] -> no_nl body ->
  osl_irregular_sread (Some (irregular_text x)) = UB.
Proof.
  intros s body x N H Nb Nn. unfold irregular_text. subst x. rewrite sread_start; [|exact N|cbn; lia|cbn; lia|cbn; unfold c_int; lia|apply Z.lt_le_incl; exact H].
  cbn [ir_control ir_exit]. change (Z.to_nat (1 + 0)) with 1%nat. cbn [next_predicates ir_predicates map concat]. rewrite app_nil_r.
  unfold predicate_text. cbn [pd_iterators pd_body pr map concat app].
  change (num (zlength [])) with (print_Z 0 ++ [c_sp]). rewrite <- app_assoc. cbn [app].
  rewrite next_count_ok0 by (reflexivity || (unfold c_int; lia) || lia). cbn [bind]. change (Z.to_nat 0) with 0%nat. cbn [next_iterators bind].
  unfold strdup_strtok.
  assert (S : strtok by_lines (c_nl :: body ++ [c_nl]) = (Some body, [])).
  { unfold strtok. change (c_nl :: body ++ [c_nl]) with ([c_nl] ++ body ++ [c_nl]). rewrite (span_skip by_lines [c_nl] (body ++ [c_nl])) by (now repeat constructor).
    assert (F : Forall (fun c => negb (by_lines c) = true) body).
    { apply Forall_forall. intros c Hc. unfold by_lines, ceqb. destruct (Ascii.eqb_spec c c_nl); [|reflexivity]. subst. now destruct (Nn Hc). }
    assert (Hh : head_not by_lines (body ++ [c_nl])).
    { destruct body as [|z l]; [easy|]. inversion F; subst. cbn. now apply negb_true_iff. }
    rewrite (span_nohead by_lines _ Hh). cbn [snd]. rewrite (span_exact _ body [c_nl] F) by reflexivity.
    destruct body as [|z l]; [easy|]. reflexivity. }
  rewrite S. reflexivity.
Qed.
Print Assumptions C48_read_refuted.
(** Nor is a text read with its tags. *)
Theorem C48_tags_refuted : let x := Irregular [[5]] 0 0 [] in exists text,
  osl_irregular_sprint (Some x) = Ok (Some text) /\ osl_irregular_sread (Some text) <> Ok (Some x).
Proof. eexists. split; [vm_compute; reflexivity|]. vm_compute. discriminate. Qed.
Print Assumptions C48_tags_refuted.
