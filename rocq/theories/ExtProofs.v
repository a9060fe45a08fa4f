(** * ExtProofs: lemmas for the printing and reading of extensions *)
From Coq Require Import ZifyBool ZifyNat.
From Verif Require Import Base IntModel VectorModel RelationModel UtilModel StringsModel RelTextModel
  TextSpec Spec RelSpec LoopLemmas TextInt UtilProofs UtilProofs2 PropStrings RelTextProofs2 RelTextProofs4 ExtModel ExtSpec PropUtil.

(** ** Blanks before an item *)
Lemma rd_int_blank b s : blank_text b -> osl_util_read_int_s (b ++ s) = osl_util_read_int_s s.
Proof. intros H. unfold osl_util_read_int_s. now rewrite sskip_blank. Qed.
Lemma rd_str_blank b s : blank_text b -> osl_util_read_string_s (b ++ s) = osl_util_read_string_s s.
Proof. intros H. unfold osl_util_read_string_s. now rewrite sskip_blank. Qed.
Lemma rd_line_blank b s : blank_text b -> osl_util_read_line_s (b ++ s) = osl_util_read_line_s s.
Proof. intros H. unfold osl_util_read_line_s. now rewrite sskip_blank. Qed.
Lemma rd_strings_blank b s : blank_text b -> osl_strings_sread (b ++ s) = osl_strings_sread s.
Proof. intros H. unfold osl_strings_sread. now rewrite sskip_blank. Qed.

Lemma blank_sp : blank_text [c_sp].
Proof. repeat constructor. Qed.
Lemma blank_nl : blank_text [c_nl].
Proof. repeat constructor. Qed.
Lemma blank_ln w : no_nl w -> blank_text (ln (c_hash :: w)).
Proof. intros H. apply (bt_comment w []); [assumption|constructor]. Qed.
Lemma blank_comment w : (exists t, w = c_hash :: t /\ no_nl t) -> blank_text (ln w).
Proof. intros (t & -> & H). now apply blank_ln. Qed.

Fixpoint no_nlb (s : str) : bool := match s with [] => true | c :: t => negb (ceqb c c_nl) && no_nlb t end.
Lemma no_nlb_ok s : no_nlb s = true -> no_nl s.
Proof.
  induction s as [|c s IH]; cbn; [intros _ []|]. rewrite andb_true_iff. intros [H1 H2] [->|H]; [now rewrite ceqb_refl in H1|].
  now apply IH.
Qed.
Definition commentb (w : str) : bool := match w with c :: t => ceqb c c_hash && no_nlb t | [] => false end.
Lemma commentb_ok w : commentb w = true -> blank_text (ln w).
Proof.
  destruct w as [|c t]; [discriminate|]. cbn. rewrite andb_true_iff, ceqb_eq. intros [-> H].
  apply blank_ln. now apply no_nlb_ok.
Qed.
Lemma commentb_blank w : commentb w = true -> blank_text (w ++ [c_nl]).
Proof. apply commentb_ok. Qed.

Ltac blank :=
  lazymatch goal with
  | |- blank_text (?a ++ ?b) => apply blank_text_app; blank
  | |- blank_text (ln _) => apply commentb_ok; vm_compute; reflexivity
  | |- blank_text [] => constructor
  | |- blank_text (_ :: _) => apply bt_space; [reflexivity|]; blank
  | |- _ => try assumption
  end.

(** ** Items *)
Lemma print_Z_tok v : Forall (fun c => is_tok c = true) (print_Z v).
Proof.
  assert (D : forall ds, digits ds -> Forall (fun c => is_tok c = true) ds).
  { intros ds. apply Forall_impl. intros c Hc. unfold is_tok. rewrite digit_not_space by assumption. cbn.
    apply negb_true_iff, ceqb_neq. intros ->. discriminate. }
  unfold print_Z. destruct (v <? 0) eqn:E.
  - constructor; [reflexivity|]. apply D. apply print_nat_ok. lia.
  - apply D. apply print_nat_ok. lia.
Qed.
Lemma rd_int v c rest : c_int v -> is_tok c = false ->
  osl_util_read_int_s (print_Z v ++ c :: rest) = Ok (v, c :: rest).
Proof.
  intros Hv Hc. unfold osl_util_read_int_s. destruct (print_Z_visible v) as (_ & d & t & E & H1 & H2 & _).
  rewrite sskip_meaningful by (rewrite E; cbn; auto). cbn [bind].
  rewrite span_exact; [|apply print_Z_tok|exact Hc].
  pose proof (int_length v Hv) as Hl.
  unfold buf_store. destruct (Z.ltb_spec (zlength (print_Z v)) MAX_STRING) as [_|Hx]; [|unfold zlength, MAX_STRING in Hx; lia].
  cbn [bind]. unfold scan_int. rewrite <- (app_nil_r (print_Z v)), scan_print_nospace by exact I.
  assert (F : fits 32 v = true) by (unfold c_int in Hv; unfold fits, smin, smax; change (32 - 1) with 31; lia).
  now rewrite F.
Qed.
Lemma rd_lnZ v rest : c_int v -> osl_util_read_int_s (lnZ v ++ rest) = Ok (v, c_nl :: rest).
Proof. intros H. unfold lnZ. rewrite <- app_assoc. now apply rd_int. Qed.
Lemma rd_str n x c rest : word_string n x -> (n < 2048)%nat -> is_tok c = false ->
  osl_util_read_string_s (x ++ c :: rest) = Ok (x, c :: rest).
Proof.
  intros (Hne & Hl & Hx) Hn Hc. unfold osl_util_read_string_s.
  assert (Ht : Forall (fun c => is_tok c = true) x).
  { apply Forall_forall. intros d Hd. destruct (Hx d Hd) as [A B]. unfold is_tok. apply ceqb_neq in B. now rewrite A, B. }
  rewrite sskip_meaningful by (destruct x as [|d x]; [congruence|]; cbn; apply Hx; now left).
  cbn [bind]. rewrite span_exact by assumption.
  unfold buf_store. destruct (Z.ltb_spec (zlength x) MAX_STRING) as [_|Hz]; [|unfold zlength, MAX_STRING in Hz; lia].
  cbn [bind]. unfold scan_str. destruct x as [|d x]; [congruence|].
  rewrite skip_spaces_nonspace by (apply Hx; now left).
  rewrite span_all; [reflexivity|]. revert Ht. apply Forall_impl. intros a. unfold is_tok, not_space. now destruct (is_space a).
Qed.
Lemma rd_ln_str n x rest : word_string n x -> (n < 2048)%nat ->
  osl_util_read_string_s (ln x ++ rest) = Ok (x, c_nl :: rest).
Proof. intros H Hn. unfold ln. rewrite <- app_assoc. now apply (rd_str n). Qed.
Lemma rd_line n x rest : line_string n x -> (n < 2048)%nat ->
  osl_util_read_line_s (x ++ c_nl :: rest) = Ok (x, c_nl :: rest).
Proof.
  intros (Hnl & Hh & Hl & Hc) Hn. unfold osl_util_read_line_s.
  destruct x as [|d x]; [destruct Hc|].
  rewrite sskip_meaningful by (cbn; split; [assumption|]; intros ->; apply Hh; now left).
  cbn [bind]. rewrite span_exact; [| |reflexivity].
  - unfold buf_store. destruct (Z.ltb_spec (zlength (d :: x)) MAX_STRING) as [_|Hz]; [reflexivity|unfold zlength, MAX_STRING in Hz; lia].
  - apply Forall_forall. intros a Ha. unfold in_line. apply andb_true_iff. rewrite !negb_true_iff, !ceqb_neq.
    split; intros ->; auto.
Qed.
Lemma rd_ln_line n x rest : line_string n x -> (n < 2048)%nat ->
  osl_util_read_line_s (ln x ++ rest) = Ok (x, c_nl :: rest).
Proof. intros H Hn. unfold ln. rewrite <- app_assoc. now apply (rd_line n). Qed.

Lemma word_plain n x : word_string n x -> (n < 2048)%nat -> plain_string x.
Proof. intros (A & B & C) Hn. split; [assumption|]. split; [lia|assumption]. Qed.

(** ** Buffers *)
Lemma store_ok t : (List.length t < 2048)%nat -> buf_store t = Ok t.
Proof. intros H. unfold buf_store. destruct (Z.ltb_spec (zlength t) MAX_STRING) as [_|Hz]; [reflexivity|unfold zlength, MAX_STRING in Hz; lia]. Qed.
Lemma store_ln n x : (List.length x <= n)%nat -> (n < 2047)%nat -> buf_store (ln x) = Ok (ln x).
Proof. intros H Hn. apply store_ok. unfold ln. rewrite app_length. cbn. lia. Qed.
Lemma count_c_int {A} (l : list A) : count_ok l -> c_int (zlength l).
Proof. unfold count_ok, c_int, zlength. lia. Qed.
Lemma count_nat {A} (l : list A) : Z.to_nat (zlength l) = List.length l.
Proof. unfold zlength. lia. Qed.
Lemma count_neg {A} (l : list A) : (zlength l <? 0) = false.
Proof. unfold zlength. lia. Qed.

(** Removing the blanks before the next item, then reading it. *)
Ltac norm := unfold lnZ, ln; repeat (progress (cbn [app]; rewrite <- ?app_assoc)).

(** A loop of readers over a list of printed elements: each element is read from
    any blank prefix and leaves a blank gap. *)
Section LIST.
Context {A : Type} (one : str -> res (A * str)) (many : nat -> str -> res (list A * str)).
Hypothesis many_O : forall s, many O s = Ok ([], s).
Hypothesis many_S : forall k s, many (S k) s = ('(x, s) <- one s ;; '(l, s) <- many k s ;; Ok (x :: l, s)).
Definition item (x : A) (t : str) : Prop :=
  forall before after, blank_text before ->
    exists gap, blank_text gap /\ one (before ++ t ++ after) = Ok (x, gap ++ after).
Lemma many_ok l ts : Forall2 item l ts -> forall before after, blank_text before ->
  exists gap, blank_text gap /\ many (List.length l) (before ++ concat ts ++ after) = Ok (l, gap ++ after).
Proof.
  induction 1 as [|x t l ts Hx Hl IH]; intros before after Hb; cbn [List.length concat app].
  - exists before. split; [assumption|]. apply many_O.
  - rewrite many_S, <- app_assoc. destruct (Hx before (concat ts ++ after) Hb) as (g & Hg & E). rewrite E. cbn [bind].
    destruct (IH g after Hg) as (g' & Hg' & E'). rewrite E'. cbn [bind]. eauto.
Qed.
End LIST.

Lemma print_all_ok {A} (f : A -> res str) (g : A -> str) l : Forall (fun x => f x = Ok (g x)) l ->
  print_all f l = Ok (concat (map g l)).
Proof. induction 1 as [|x l Hx Hl IH]; [reflexivity|]. cbn. rewrite Hx, IH. reflexivity. Qed.
Lemma forall2_map {A B} (P : A -> B -> Prop) (g : A -> B) l : Forall (fun x => P x (g x)) l -> Forall2 P l (map g l).
Proof. induction 1; cbn; constructor; auto. Qed.

(** ** Automation: skip what is blank before the next item, read it, go on *)
Lemma rd_int_c c s : is_space c = true -> osl_util_read_int_s (c :: s) = osl_util_read_int_s s.
Proof. intros H. apply (rd_int_blank [c]). repeat constructor. assumption. Qed.
Lemma rd_str_c c s : is_space c = true -> osl_util_read_string_s (c :: s) = osl_util_read_string_s s.
Proof. intros H. apply (rd_str_blank [c]). repeat constructor. assumption. Qed.
Lemma rd_line_c c s : is_space c = true -> osl_util_read_line_s (c :: s) = osl_util_read_line_s s.
Proof. intros H. apply (rd_line_blank [c]). repeat constructor. assumption. Qed.
Lemma rd_strings_c c s : is_space c = true -> osl_strings_sread (c :: s) = osl_strings_sread s.
Proof. intros H. apply (rd_strings_blank [c]). repeat constructor. assumption. Qed.

Ltac blk :=
  lazymatch goal with
  | H : blank_text ?b |- blank_text ?b => exact H
  | |- blank_text (ln _) => apply commentb_ok; vm_compute; reflexivity
  end.
Ltac rstep :=
  match goal with
  | |- context [osl_util_read_int_s (?c :: ?s)] => rewrite (rd_int_c c s) by reflexivity
  | |- context [osl_util_read_int_s (?b ++ ?s)] => rewrite (rd_int_blank b s) by blk
  | |- context [osl_util_read_int_s (lnZ ?v ++ ?s)] => rewrite (rd_lnZ v s) by (try assumption; try now apply count_c_int); cbn [bind]
  | |- context [osl_util_read_int_s (print_Z ?v ++ ?c :: ?s)] => rewrite (rd_int v c s) by (assumption || reflexivity); cbn [bind]
  | |- context [osl_util_read_string_s (?c :: ?s)] => rewrite (rd_str_c c s) by reflexivity
  | |- context [osl_util_read_string_s (?b ++ ?s)] => rewrite (rd_str_blank b s) by blk
  | H : word_string ?n ?x |- context [osl_util_read_string_s (ln ?x ++ ?s)] => rewrite (rd_ln_str n x s H) by lia; cbn [bind]
  | H : word_string ?n ?x |- context [osl_util_read_string_s (?x ++ ?c :: ?s)] => rewrite (rd_str n x c s H) by (lia || reflexivity); cbn [bind]
  | |- context [osl_util_read_line_s (?c :: ?s)] => rewrite (rd_line_c c s) by reflexivity
  | |- context [osl_util_read_line_s (?b ++ ?s)] => rewrite (rd_line_blank b s) by blk
  | H : line_string ?n ?x |- context [osl_util_read_line_s (ln ?x ++ ?s)] => rewrite (rd_ln_line n x s H) by lia; cbn [bind]
  | H : line_string ?n ?x |- context [osl_util_read_line_s (?x ++ c_nl :: ?s)] => rewrite (rd_line n x s H) by lia; cbn [bind]
  | |- context [osl_strings_sread (?c :: ?s)] => rewrite (rd_strings_c c s) by reflexivity
  | |- context [osl_strings_sread (?b ++ ?s)] => rewrite (rd_strings_blank b s) by blk
  end.
Ltac assoc := repeat (progress (cbn [app]; rewrite <- ?app_assoc)).
Ltac reads := repeat (assoc; rstep).
(** Close [exists gap, blank_text gap /\ Ok (x, g) = Ok (x, gap ++ after)]. *)
Ltac gap g := exists g; split; [blank|reflexivity].

(** ** Copied arrays *)
Lemma copy_array_ok {A} (f : A -> res A) l : (forall x, In x l -> f x = Ok x) -> copy_array f (zlength l) l = Ok l.
Proof.
  intros Hf. unfold copy_array.
  destruct (cfor_inv (fun i acc => acc = firstn (Z.to_nat i) l) 0 (zlength l)
    (fun i acc => x <- aget l i ;; y <- f x ;; Ok (acc ++ [y])) []) as (s & E & Hs).
  - apply zlength_nonneg.
  - reflexivity.
  - intros i acc Hi ->. unfold aget. destruct (Z.ltb_spec i 0) as [|_]; [lia|].
    destruct (nth_error l (Z.to_nat i)) as [x|] eqn:Ex; [|apply nth_error_None in Ex; unfold zlength in Hi; lia].
    cbn [bind]. rewrite Hf by (eapply nth_error_In; eassumption). cbn [bind]. eexists. split; [reflexivity|].
    replace (Z.to_nat (i + 1)) with (S (Z.to_nat i)) by lia.
    clear -Ex. revert l Ex. induction (Z.to_nat i) as [|n IH]; intros [|y l] Ex; try discriminate; cbn in *.
    + now injection Ex as ->.
    + f_equal. now apply IH.
  - rewrite E, Hs. unfold zlength. now rewrite Nat2Z.id, firstn_all.
Qed.
