(** * UtilProofs2: delimiters, growing buffers *)
From Verif Require Import Base IntModel UtilModel TextSpec TextInt UtilProofs.

Lemma starts_with_spec pre : forall s, starts_with pre s = true <-> exists r, s = pre ++ r.
Proof.
  induction pre as [|c pre IH]; intros s; cbn.
  - split; [intros _; now exists s|reflexivity].
  - destruct s as [|d s]; [split; [discriminate|intros [r H]; discriminate]|].
    rewrite andb_true_iff, ceqb_eq, IH. split.
    + intros [-> [r ->]]. now exists r.
    + intros [r H]. injection H as -> ->. split; [reflexivity|now exists r].
Qed.

Lemma flag_here_spec flag acc : flag_here flag acc = true <-> exists a, acc = a ++ flag.
Proof.
  unfold flag_here. rewrite andb_true_iff, Nat.leb_le, starts_with_spec. split.
  - intros [Hl [r Hr]]. exists (firstn (List.length acc - List.length flag) acc).
    rewrite <- (firstn_skipn (List.length acc - List.length flag) acc) at 1. f_equal.
    assert (List.length r = 0%nat).
    { apply (f_equal (@List.length _)) in Hr. rewrite skipn_length, app_length in Hr. lia. }
    destruct r; [|discriminate]. now rewrite Hr, app_nil_r.
  - intros [a ->]. rewrite app_length. split; [lia|]. exists [].
    replace (List.length a + List.length flag - List.length flag)%nat with (List.length a) by lia.
    rewrite skipn_app, skipn_all, Nat.sub_diag. now rewrite app_nil_r.
Qed.

(** Splitting two decompositions of the same list. *)
Lemma app_le_split {A} (a x b y : list A) : a ++ x = b ++ y -> (List.length a <= List.length b)%nat ->
  exists m, b = a ++ m /\ x = m ++ y.
Proof.
  revert b. induction a as [|c a IH]; intros b E Hl.
  - exists b. split; [reflexivity|exact E].
  - destruct b as [|d b]; [cbn in Hl; lia|]. injection E as -> E. cbn in Hl.
    destruct (IH b E) as (m & -> & ->); [lia|]. now exists m.
Qed.

Lemma uptoflag_loop_ok flag : flag <> [] -> forall s acc, ~ occurs flag acc ->
  match uptoflag_loop flag acc s with
  | (Some a, r) => first_occurrence flag (acc ++ s) a r
  | (None, r) => r = [] /\ ~ occurs flag (acc ++ s)
  end.
Proof.
  intros Hf. induction s as [|c s IH]; intros acc Hacc; cbn [uptoflag_loop].
  - rewrite app_nil_r. auto.
  - destruct (flag_here flag (acc ++ [c])) eqn:E.
    + apply flag_here_spec in E as [a Ha]. rewrite Ha, app_length.
      replace (List.length a + List.length flag - List.length flag)%nat with (List.length a) by lia.
      rewrite firstn_app, firstn_all, Nat.sub_diag. cbn [firstn]. rewrite app_nil_r.
      assert (Hall : acc ++ c :: s = a ++ flag ++ s).
      { change (c :: s) with ([c] ++ s). rewrite app_assoc, Ha, <- app_assoc. reflexivity. }
      split; [exact Hall|]. intros a' b' E'.
      destruct (Nat.le_gt_cases (List.length a) (List.length a')) as [|Hlt]; [assumption|].
      exfalso. apply Hacc. rewrite app_assoc in E'.
      destruct (app_le_split (a' ++ flag) b' acc (c :: s)) as (m & Hm & _).
      * now rewrite <- app_assoc, app_assoc.
      * apply (f_equal (@List.length _)) in Ha. rewrite !app_length in *. cbn in Ha. lia.
      * exists a', m. rewrite Hm, <- app_assoc. reflexivity.
    + specialize (IH (acc ++ [c])). rewrite <- app_assoc in IH. apply IH.
      intros (a & b & Hab). destruct (exists_last (l := a ++ flag ++ b)) as (b0 & x & Hb).
      { rewrite <- Hab. now destruct acc. }
      destruct b as [|y b] using rev_ind.
      * rewrite app_nil_r in Hab. assert (flag_here flag (acc ++ [c]) = true) by (apply flag_here_spec; now exists a). congruence.
      * apply Hacc. exists a, b. rewrite !app_assoc in Hab. apply app_inj_tail in Hab as [-> _]. now rewrite <- app_assoc.
Qed.

Lemma uptoflag_s_ok s flag : flag <> [] ->
  match osl_util_read_uptoflag_s s flag with
  | (Some a, r) => first_occurrence flag s a r
  | (None, r) => r = [] /\ ~ occurs flag s
  end.
Proof.
  intros Hf. apply (uptoflag_loop_ok flag Hf s []). intros (a & b & H). destruct a; [|discriminate].
  destruct flag; [congruence|discriminate].
Qed.

Lemma uptoflag_file_ok flag : ~ In (chr 255) flag -> flag <> [] -> forall s fuel acc,
  (List.length s + 2 <= fuel)%nat -> ~ occurs flag acc ->
  uptoflag_file fuel flag acc (File s false) =
  Ok (let '(o, r) := uptoflag_loop flag acc s in
      match o with Some a => (Some a, File r false) | None => (None, File [] true) end).
Proof.
  intros H255 Hf. induction s as [|c s IH]; intros fuel acc Hfu Hacc; (destruct fuel as [|k]; [cbn in Hfu; lia|]).
  - cbn [uptoflag_file fgetc ftext feof uptoflag_loop]. destruct (flag_here flag (acc ++ [chr 255])) eqn:E.
    + apply flag_here_spec in E as [a Ha]. exfalso. apply H255.
      destruct (exists_last Hf) as (fl & x & ->). rewrite app_assoc in Ha.
      apply app_inj_tail in Ha as [_ <-]. apply in_or_app. right. now left.
    + destruct k; [cbn in Hfu; lia|]. reflexivity.
  - cbn [uptoflag_file fgetc ftext feof uptoflag_loop]. destruct (flag_here flag (acc ++ [c])) eqn:E; [reflexivity|].
    apply IH; [cbn in Hfu; lia|]. intros (a & b & Hab). destruct b as [|y b] using rev_ind.
    + rewrite app_nil_r in Hab. assert (flag_here flag (acc ++ [c]) = true) by (apply flag_here_spec; now exists a). congruence.
    + apply Hacc. exists a, b. rewrite !app_assoc in Hab. apply app_inj_tail in Hab as [-> _]. now rewrite <- app_assoc.
Qed.

Lemma uptoflag_f_ok s flag : flag <> [] -> ~ In (chr 255) flag ->
  exists o f', osl_util_read_uptoflag_f (File s false) flag = Ok (o, f') /\
  match o with
  | Some a => first_occurrence flag s a (ftext f') /\ feof f' = false
  | None => ~ occurs flag s /\ ftext f' = [] /\ feof f' = true
  end.
Proof.
  intros Hf H255. unfold osl_util_read_uptoflag_f. cbn [ftext].
  rewrite uptoflag_file_ok; auto; [|lia|].
  - pose proof (uptoflag_s_ok s flag Hf) as H. unfold osl_util_read_uptoflag_s in H.
    destruct (uptoflag_loop flag [] s) as [[a|] r]; do 2 eexists; (split; [reflexivity|]); cbn; tauto.
  - intros (a & b & H). destruct a; [|discriminate]. destruct flag; [congruence|discriminate].
Qed.

(** First occurrences are unique. *)
Lemma first_occurrence_unique pat s a b a' b' :
  first_occurrence pat s a b -> first_occurrence pat s a' b' -> a = a' /\ b = b'.
Proof.
  intros [E Hm] [E' Hm']. specialize (Hm _ _ E'). specialize (Hm' _ _ E).
  rewrite E in E'. destruct (app_le_split _ _ _ _ E') as (m & -> & Hx); [lia|].
  rewrite app_length in Hm'. destruct m; [|cbn in Hm'; lia]. rewrite app_nil_r. split; [reflexivity|].
  cbn in Hx. now apply app_inv_head in Hx.
Qed.

(** ** find_pat *)
Lemma find_pat_ok pat : pat <> [] -> forall s,
  match find_pat pat s with
  | (a, b) => s = a ++ b /\
      ((b = [] /\ ~ occurs pat s) \/ exists r, b = pat ++ r /\ first_occurrence pat s a r)
  end.
Proof.
  intros Hp. induction s as [|c s IH].
  - cbn. split; [reflexivity|]. left. split; [reflexivity|]. intros (a & b & H).
    destruct a; [|discriminate]. destruct pat; [congruence|discriminate].
  - cbn [find_pat]. destruct (starts_with pat (c :: s)) eqn:E.
    + split; [reflexivity|]. right. apply starts_with_spec in E as [r Hr]. exists r. split; [assumption|].
      split; [exact Hr|]. intros; cbn; lia.
    + destruct (find_pat pat s) as [a b]. destruct IH as [-> IH]. split; [reflexivity|].
      assert (Hc : forall r, c :: a ++ b <> pat ++ r).
      { intros r Hr. assert (starts_with pat (c :: a ++ b) = true) by (apply starts_with_spec; now exists r). congruence. }
      destruct IH as [[-> Hn]|(r & -> & Hs & Hm)]; [left|right].
      * split; [reflexivity|]. intros (x & y & Hxy). destruct x as [|d x]; [eapply Hc; exact Hxy|].
        injection Hxy as -> Hxy. apply Hn. now exists x, y.
      * exists r. split; [reflexivity|]. split; [reflexivity|]. intros x y Hxy.
        destruct x as [|d x]; [exfalso; eapply Hc; exact Hxy|]. injection Hxy as -> Hxy. cbn.
        specialize (Hm _ _ Hxy). lia.
Qed.

Lemma tag_of_start name : tag_of name = start_tag name.
Proof. reflexivity. Qed.
Lemma endtag_of_end name : endtag_of name = end_tag name.
Proof. reflexivity. Qed.

Lemma skipn_app_exact {A} (a b : list A) : skipn (List.length a) (a ++ b) = b.
Proof. rewrite skipn_app, skipn_all, Nat.sub_diag. reflexivity. Qed.

Lemma tag_content_found s name before after content post :
  first_occurrence (start_tag name) s before after ->
  first_occurrence (end_tag name) after content post ->
  osl_util_tag_content (Some s) name =
  match content with [] => UB | _ :: copy => Ok (Some copy) end.
Proof.
  intros H1 H2. unfold osl_util_tag_content. rewrite tag_of_start, endtag_of_end.
  pose proof (find_pat_ok (start_tag name) ltac:(discriminate) s) as F.
  destruct (find_pat (start_tag name) s) as [a b]. destruct F as [_ [[_ F]|(r & -> & F)]].
  { exfalso. apply F. exists before, after. apply H1. }
  destruct (first_occurrence_unique _ _ _ _ _ _ F H1) as [-> ->].
  destruct (start_tag name ++ after) eqn:E; [discriminate|]. rewrite <- E, skipn_app_exact. clear E.
  pose proof (find_pat_ok (end_tag name) ltac:(discriminate) after) as F2.
  destruct (find_pat (end_tag name) after) as [a' b']. destruct F2 as [_ [[_ F2]|(r & -> & F2)]].
  { exfalso. apply F2. exists content, post. apply H2. }
  destruct (first_occurrence_unique _ _ _ _ _ _ F2 H2) as [-> ->].
  reflexivity.
Qed.
Lemma tag_content_no_start s name : ~ occurs (start_tag name) s ->
  osl_util_tag_content (Some s) name = Ok None.
Proof.
  intros H. unfold osl_util_tag_content. rewrite tag_of_start.
  pose proof (find_pat_ok (start_tag name) ltac:(discriminate) s) as F.
  destruct (find_pat (start_tag name) s) as [a b]. destruct F as [_ [[-> F]|(r & -> & F)]]; [reflexivity|].
  exfalso. apply H. exists a, r. apply F.
Qed.
Lemma tag_content_no_end s name before after :
  first_occurrence (start_tag name) s before after -> ~ occurs (end_tag name) after ->
  osl_util_tag_content (Some s) name = Ok None.
Proof.
  intros H1 H2. unfold osl_util_tag_content. rewrite tag_of_start, endtag_of_end.
  pose proof (find_pat_ok (start_tag name) ltac:(discriminate) s) as F.
  destruct (find_pat (start_tag name) s) as [a b]. destruct F as [_ [[_ F]|(r & -> & F)]].
  { exfalso. apply F. exists before, after. apply H1. }
  destruct (first_occurrence_unique _ _ _ _ _ _ F H1) as [-> ->].
  destruct (start_tag name ++ after) eqn:E; [discriminate|]. rewrite <- E, skipn_app_exact. clear E.
  pose proof (find_pat_ok (end_tag name) ltac:(discriminate) after) as F2.
  destruct (find_pat (end_tag name) after) as [a' b']. destruct F2 as [_ [[-> F2]|(r & -> & F2)]]; [reflexivity|].
  exfalso. apply H2. exists a', r. apply F2.
Qed.

(** ** Growing buffers *)
Definition buffer_ok (b : buffer) : Prop :=
  b_alloc b = b_hwm b /\ zlength (b_str b) < b_alloc b.

Lemma zlength_app {A} (a b : list A) : zlength (a ++ b) = zlength a + zlength b.
Proof. unfold zlength. rewrite app_length. lia. Qed.
Lemma zlength_nonneg {A} (a : list A) : 0 <= zlength a.
Proof. unfold zlength. lia. Qed.

Lemma strcat_grow_ok src fuel : forall b, b_alloc b = b_hwm b ->
  zlength (b_str b) + zlength src - b_hwm b + 1 < Z.of_nat fuel ->  (0 < fuel)%nat ->
  exists b', strcat_grow fuel src b = Ok b' /\ b_alloc b' = b_hwm b' /\ b_str b' = b_str b /\
    b_hwm b <= b_hwm b' /\ zlength (b_str b) + zlength src < b_hwm b'.
Proof.
  induction fuel as [|k IH]; intros b Ha Hf H0; [lia|]. cbn [strcat_grow].
  destruct (Z.leb_spec (b_hwm b) (zlength (b_str b) + zlength src)).
  - destruct (IH (Buffer (b_hwm b + MAX_STRING) (b_str b) (b_hwm b + MAX_STRING))) as (b' & H1 & H2 & H3 & H4 & H5).
    + reflexivity.
    + cbn. unfold MAX_STRING. lia.
    + lia.
    + exists b'. split; [assumption|]. cbn [b_str b_hwm] in *. unfold MAX_STRING in *. repeat split; auto; lia.
  - exists b. repeat split; auto; lia.
Qed.

Lemma safe_strcat_ok b src : buffer_ok b ->
  exists b', osl_util_safe_strcat b src = Ok b' /\ buffer_ok b' /\ b_str b' = b_str b ++ src.
Proof.
  intros [Ha Hl]. unfold osl_util_safe_strcat.
  destruct (strcat_grow_ok src (S (S (Z.to_nat (zlength (b_str b) + zlength src - b_hwm b)))) b Ha) as (b' & H1 & H2 & H3 & H4 & H5); [lia|lia|].
  rewrite H1. cbn [bind]. rewrite H3, H2.
  destruct (Z.ltb_spec (zlength (b_str b) + zlength src) (b_hwm b')); [|lia].
  eexists. split; [reflexivity|]. split; [|reflexivity]. split; cbn; [reflexivity|].
  rewrite zlength_app. lia.
Qed.
