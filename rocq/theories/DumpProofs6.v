(** * DumpProofs6: the dumps of dependences, generics, statements and scops can be told from each other *)
From Verif Require Import Base Spec RelSpec TextSpec IntModel IntProofs VectorModel RelationModel RelationProofs UtilModel StringsModel RelTextModel LoopLemmas
  UtilProofs TextInt RelTextProofs RelTextProofs2 PropExpr2 SaveProofs ExtModel ScopModel IrregModel DumpModel DumpSpec DumpProofs DumpProofs2 DumpProofs3 DumpProofs4 DumpProofs5.

(** The text of one value is not the beginning of that of another one *)
Definition code1 {A} (f : A -> Z -> res str) (P : A -> Prop) (x : A) : Prop :=
  forall y l a b s s', 0 <= l -> P y -> f x l = Ok a -> f y l = Ok b -> a ++ s = b ++ s' -> x = y /\ s = s'.
Lemma code1_chain {A} (f : Z -> Z -> A -> res str) (P : A -> Prop) (title null : str) xs :
  no_nl title -> no_nl null -> title <> null ->
  Forall (fun x => forall n, code1 (fun x l => f l n x) P x) xs ->
  code1 (fun xs l => t <- nodes (f l) (line (l + 1) (lit "V")) 1 xs ;;
                     Ok (line l (match xs with _ :: _ => title | [] => null end) ++ t ++ line (l + 1) [])) (Forall P) xs.
Proof.
  intros Ht Hn Hne Hf.
  assert (R : forall l ys n a b s s', 0 <= l -> Forall P ys -> (xs = [] <-> ys = []) ->
    nodes (f l) (line (l + 1) (lit "V")) n xs = Ok a -> nodes (f l) (line (l + 1) (lit "V")) n ys = Ok b ->
    a ++ line (l + 1) [] ++ s = b ++ line (l + 1) [] ++ s' -> xs = ys /\ s = s').
  { intros l. induction Hf as [|x xs Hx Hf IH]; intros [|y ys] n a b s s' Hl Hy [H1 H2] Ea Eb E.
    - cbn in Ea, Eb. apply Ok_inj in Ea. apply Ok_inj in Eb. subst. cbn [app] in E. apply app_inv_head in E. auto.
    - specialize (H1 eq_refl). discriminate.
    - specialize (H2 eq_refl). discriminate.
    - rewrite nodes_cons in Ea, Eb.
      inv_bind Ea. inv_bind Ea. inv_bind Eb. inv_bind Eb. apply Ok_inj in Ea. apply Ok_inj in Eb. subst.
      rewrite <- !app_assoc in E. inversion Hy; subst.
      eapply (Hx n y l) in E; eauto. destruct E as [-> E].
      destruct xs as [|x2 xs], ys as [|y2 ys].
      + cbn in E1, E3. apply Ok_inj in E1. apply Ok_inj in E3. subst. cbn [app] in E. apply app_inv_head in E. subst. auto.
      + cbn in E1. apply Ok_inj in E1. subst. cbn [app] in E. cmp E. discriminate.
      + cbn in E3. apply Ok_inj in E3. subst. cbn [app] in E. cmp E. discriminate.
      + apply app_inv_head in E. eapply (IH (y2 :: ys) (n + 1)) in E; eauto; [destruct E as [-> ->]; auto|]. split; discriminate. }
  intros ys l a b s s' Hl Hy Ea Eb E. inv_bind Ea. inv_bind Eb. apply Ok_inj in Ea. apply Ok_inj in Eb. subst.
  rewrite <- !app_assoc in E. apply line_inj in E; [|destruct xs; assumption|destruct ys; assumption]. destruct E as [Et E].
  eapply R; eauto. destruct xs, ys; split; intros; try reflexivity; try discriminate; congruence.
Qed.

Section CODES.
Context {cfg : config}.
Variable pointed : dependence -> option statement * option statement.
Section ONE.
Variable one : statement -> Z -> res str.
Hypothesis Hone : code one (clear_statement cfg).
Hypothesis Hp : each_pointed pointed (clear_statement cfg).

Lemma dep_type_inj t t' : In t [UNDEFINED; 1; 2; 3; 4; 5] -> In t' [UNDEFINED; 1; 2; 3; 4; 5] -> dep_type_dump t = dep_type_dump t' -> t = t'.
Proof.
  intros H H'. cbn in H, H'.
  repeat (destruct H as [<- | H]; [repeat (destruct H' as [<- | H']; [cbn; intros E; first [discriminate | reflexivity]|]); destruct H'|]).
  destruct H.
Qed.
Lemma symbol_type_inj t t' : In t [UNDEFINED; 1; 2; 3; 4] -> In t' [UNDEFINED; 1; 2; 3; 4] -> symbol_type_dump t = symbol_type_dump t' -> t = t'.
Proof.
  intros H H'. cbn in H, H'.
  repeat (destruct H as [<- | H]; [repeat (destruct H' as [<- | H']; [cbn; intros E; first [discriminate | reflexivity]|]); destruct H'|]).
  destruct H.
Qed.
Lemma pointed_code d d' (side : option statement * option statement -> option statement) l a b s s' :
  (side = fst \/ side = snd) -> 0 <= l ->
  pointed_idump one (side (pointed d)) l = Ok a -> pointed_idump one (side (pointed d')) l = Ok b -> a ++ s = b ++ s' -> s = s'.
Proof.
  intros Hs Hl Ea Eb E. unfold pointed_idump in *. destruct (side (pointed d)) as [x|] eqn:Ex; [|discriminate]. destruct (side (pointed d')) as [y|] eqn:Ey; [|discriminate].
  eapply (Hone x y l); eauto; [apply (Hp d)|apply (Hp d')]; destruct Hs; subst; auto.
Qed.
Lemma code_dependence : code (osl_dependence_idump pointed one) (Forall (clear_dependence cfg)).
Proof.
  apply (code_chain (dependence_node pointed one)); [nonl|nonl|discriminate|]. intros n x y l a b s s' Hl (Ht & Hd & Hu) (Ht' & Hd' & Hu') Ea Eb E.
  unfold dependence_node in *. inv_bind Ea. inv_bind Ea. inv_bind Ea. inv_bind Eb. inv_bind Eb. inv_bind Eb. apply Ok_inj in Ea. apply Ok_inj in Eb. subst.
  rewrite <- !app_assoc in E. apply app_inv_head in E. cmp E. cmp E. apply app_inv_head in H0. apply dep_type_inj in H0; auto.
  cmp E. cmp E. apply app_inv_head in H2. apply print_Z_inj in H2. cmp E. cmp E. apply app_inv_head in H4. apply num_inj in H4; [|reflexivity..]. destruct H4 as [H4 H5].
  apply app_inv_head in H5. apply print_Z_inj in H5. cmp E. cmp E. apply app_inv_head in H7. apply print_Z_inj in H7.
  apply (pointed_code x y fst (l + 1)) in E; auto; [|lia]. cmp E. apply app_inv_head in H8. apply print_Z_inj in H8.
  apply (pointed_code x y snd (l + 1)) in E; auto; [|lia]. cmp E. apply print_spaced_inj in H9; [|unfold zlength in *; lia].
  apply (code_union (de_domain x) (de_domain y) (l + 1)) in E; auto; [|lia]. destruct E as [E ->]. destruct x, y; cbn in *; subst; auto.
Qed.

(** The data of a generic or NULL *)
Definition any_idump (k : kind) (d : option edata) (l : Z) : res str :=
  match d with Some d => data_idump pointed one k d l | None => null_idump pointed one k l end.
Definition clear_payload (k : kind) (d : option edata) : Prop :=
  clear_data cfg (osl_interface_of k) d /\ match d with Some d => data_inside (clear_data cfg) d /\ no_hidden_data d | None => True end.
Definition clear_one (g : generic) : Prop := generic_inside (clear_data cfg) g /\ no_hidden g.
Definition clear_symbol (x : symbol) : Prop :=
  symbol_inside (clear_data cfg) x /\ no_hidden_symbol x /\ In (symbol_type x) [UNDEFINED; 1; 2; 3; 4].

Lemma code_generics_of f l : Forall (fun g => forall n, code1 (fun g l => f l n g) clear_one g) l -> code1 (generics_idump f) (Forall clear_one) l.
Proof. intros H. unfold generics_idump. apply (code1_chain f); [nonl|nonl|discriminate|exact H]. Qed.

Ltac by_clear E := destruct E as [E ->]; first [discriminate | contradiction | now (injection E as ->) | now subst | congruence | now auto].
Lemma clear_symbols l : Forall (fun x => In (symbol_type x) [UNDEFINED; 1; 2; 3; 4]) l ->
  data_inside (clear_data cfg) (DSymbols l) -> no_hidden_data (DSymbols l) -> Forall clear_symbol l.
Proof.
  intros H1 H2 H3. cbn [data_inside no_hidden_data] in H2, H3. apply fold_and in H2. apply fold_and in H3. rewrite Forall_forall in *. intros x Hx. split; [exact (H2 x Hx)|split; [exact (H3 x Hx)|auto]].
Qed.
Lemma symbols_code l : Forall (fun x => clear_symbol x -> forall n, code1 (fun x l => symbol_node pointed one l n x) clear_symbol x) l ->
  Forall clear_symbol l ->
  code1 (fun xs l => t <- nodes (symbol_node pointed one l) (line (l + 1) (lit "V")) 1 xs ;;
                     Ok (line l (match xs with _ :: _ => lit "+-- osl_symbols_t" | [] => lit "+-- NULL symbols" end) ++ t ++ line (l + 1) [])) (Forall clear_symbol) l.
Proof.
  intros H H'. apply (code1_chain (symbol_node pointed one)); [nonl|nonl|discriminate|]. rewrite Forall_forall in *. auto.
Qed.
Lemma generics_code l : Forall (fun g => clear_one g -> forall n, code1 (fun g l => generic_node pointed one l n g) clear_one g) l ->
  fold_right (fun g Q => generic_inside (clear_data cfg) g /\ Q) True l -> fold_right (fun g Q => no_hidden g /\ Q) True l ->
  forall l' k a b s s', 0 <= k -> 
  fold_right (fun g Q => generic_inside (clear_data cfg) g /\ Q) True l' -> fold_right (fun g Q => no_hidden g /\ Q) True l' ->
  generics_idump (generic_node pointed one) l k = Ok a -> generics_idump (generic_node pointed one) l' k = Ok b -> a ++ s = b ++ s' -> l = l' /\ s = s'.
Proof.
  intros H H1 H2 l' k a b s s' Hk H1' H2' Ea Eb E. apply fold_and in H1. apply fold_and in H2. apply fold_and in H1'. apply fold_and in H2'.
  eapply (code_generics_of (generic_node pointed one) l); [|exact Hk| |exact Ea|exact Eb|exact E].
  - rewrite Forall_forall in *. intros g Hg. apply H; [exact Hg|]. split; auto.
  - rewrite Forall_forall in *. intros g Hg. split; auto.
Qed.
Lemma null_code k : code1 (fun d l => any_idump k d l) (clear_payload k) None.
Proof.
  intros y l a b s s' Hl Hy Ea Eb E. destruct y as [y|].
  2:{ cbn [any_idump] in Ea, Eb. rewrite Ea in Eb. apply Ok_inj in Eb. subst. apply app_inv_head in E. auto. }
  destruct Hy as [[_ Hy] Hin']. exfalso. destruct k, y; try discriminate; cbn [any_idump data_idump null_idump] in *; try (apply Ok_inj in Ea; apply Ok_inj in Eb; subst).
  - apply code_strings in E; [now destruct E|exact Hl|now left|exact Hy].
  - apply code_body in E; [now destruct E|exact Hl|exact I|exact Hy].
  - destruct Hy as [H Hy]. now destruct (code_union [] _ l a b s s' Hl (Forall_nil _) Hy Ea Eb E) as [<- _].
  - eapply code_textual in E; [|exact Hl| | |exact Ea|exact Eb]; [now destruct E|exact I|exact Hy].
  - eapply code_comment in E; [|exact Hl| | |exact Ea|exact Eb]; [now destruct E|exact I|exact Hy].
  - apply code_null in E; [now destruct E|exact Hl|exact I|exact I].
  - apply code_scatinfos in E; [now destruct E|exact Hl|exact I|exact I].
  - apply code_scatnames in E; [now destruct E|exact Hl|exact I|exact Hy].
  - apply code_arrays in E; [now destruct E|exact Hl|exact I|exact Hy].
  - apply code_coordinates in E; [now destruct E|exact Hl|exact I|exact Hy].
  - eapply code_clay in E; [|exact Hl| | |exact Ea|exact Eb]; [now destruct E|exact I|exact Hy].
  - destruct Hy as [H Hy]. now destruct (code_dependence [] _ l a b s s' Hl (Forall_nil _) Hy Ea Eb E) as [<- _].
  - destruct Hy as [H Hy], Hin' as [H1 H2]. now destruct (symbols_code [] (Forall_nil _) (Forall_nil _) _ l a b s s' Hl (clear_symbols _ Hy H1 H2) Ea Eb E) as [<- _].
  - apply code_extbody in E; [now destruct E|exact Hl|exact I|exact Hy].
  - destruct Hy as [H Hy]. now destruct (code_loop [] _ l a b s s' Hl (Forall_nil _) Hy Ea Eb E) as [<- _].
  - destruct Hy as [H Hy]. now destruct (code_unroll [] _ l a b s s' Hl (Forall_nil _) Hy Ea Eb E) as [<- _].
  - destruct Hy.
Qed.
Lemma generic_code i d n g l a b s s' : clear_one (Generic i d) -> clear_one g -> 0 <= l ->
  (forall k x, d = Some x -> clear_payload k (Some x) -> code1 (fun d l => any_idump k d l) (clear_payload k) (Some x)) ->
  generic_node pointed one l n (Generic i d) = Ok a -> generic_node pointed one l n g = Ok b -> a ++ s = b ++ s' -> Generic i d = g /\ s = s'.
Proof.
  intros [Hx Nx] [Hy Ny] Hl Hd Ea Eb E. destruct g as [i' d']. cbn [generic_node] in Ea, Eb. inv_bind Ea. inv_bind Ea. inv_bind Eb. inv_bind Eb.
  apply Ok_inj in Ea. apply Ok_inj in Eb. subst. rewrite <- !app_assoc in E. apply app_inv_head in E. cmp E.
  assert (L : Forall library (match i with Some i => [i] | None => [] end)).
  { destruct i as [i|]; [|constructor]. destruct Hx as [[Hi _] _]. now constructor. }
  assert (L' : Forall library (match i' with Some i => [i] | None => [] end)).
  { destruct i' as [i'|]; [|constructor]. destruct Hy as [[Hi _] _]. now constructor. }
  destruct (code_interface _ _ (l + 1) _ _ _ _ ltac:(lia) L L' E0 E2 E) as [Ei E'].
  assert (i = i') by (destruct i, i'; try discriminate; congruence). subst i'. destruct i as [i|].
  - assert (Hi : i = osl_interface_of (if_kind i)) by (destruct Hx as [[Hi _] _]; exact Hi).
    assert (C : forall d, generic_inside (clear_data cfg) (Generic (Some i) d) -> no_hidden (Generic (Some i) d) -> clear_payload (if_kind i) d).
    { intros [x|] [H1 H2] H3; (split; [rewrite <- Hi; exact H1|]); auto. }
    specialize (C d Hx Nx) as Cx. specialize (C d' Hy Ny) as Cy. clear C.
    change (any_idump (if_kind i) d (l + 1) = Ok v0) in E1. change (any_idump (if_kind i) d' (l + 1) = Ok v2) in E3.
    destruct d as [x|].
    + destruct (Hd (if_kind i) x eq_refl Cx d' (l + 1) v0 v2 s s' ltac:(lia) Cy E1 E3 E') as [<- ->]; auto.
    + destruct (null_code (if_kind i) d' (l + 1) v0 v2 s s' ltac:(lia) Cy E1 E3 E') as [<- ->]; auto.
  - cbn in Nx, Ny. subst. apply Ok_inj in E1. apply Ok_inj in E3. subst. auto.
Qed.
Lemma codes_mutual :
  (forall d k, clear_payload k (Some d) -> code1 (fun d l => any_idump k d l) (clear_payload k) (Some d)) /\
  (forall x, clear_symbol x -> forall n, code1 (fun x l => symbol_node pointed one l n x) clear_symbol x) /\
  (forall g, clear_one g -> forall n, code1 (fun g l => generic_node pointed one l n g) clear_one g).
Proof.
  apply edata_mutual.
  - intros d Hs k Hx y l a b s s' Hl Hy Ea Eb E. cbn [any_idump] in Ea. destruct Hx as [[_ Hx] Hin], Hy as [[_ Hy] Hin'].
    destruct k, d; try discriminate; (destruct y as [y|]; [destruct y; try discriminate|]); cbn [any_idump data_idump null_idump] in *;
      try (apply Ok_inj in Ea; apply Ok_inj in Eb; subst).
    1-2: apply code_strings in E; [by_clear E|exact Hl|exact Hx|first [exact Hy|now left]].
    1-2: apply code_body in E; [by_clear E|exact Hl|exact Hx|first [exact Hy|exact I]].
    1: destruct Hx as [Hx1 Hx], Hy as [Hy1 Hy]; pose proof (code_union _ _ l a b s s' Hl Hx Hy Ea Eb E) as E0; by_clear E0.
    1: destruct Hx as [Hx1 Hx]; pose proof (code_union _ [] l a b s s' Hl Hx (Forall_nil _) Ea Eb E) as E0; by_clear E0.
    1-2: eapply code_textual in E; [|exact Hl| | |exact Ea|exact Eb]; [by_clear E|exact Hx|first [exact Hy|exact I]].
    1-2: eapply code_comment in E; [|exact Hl| | |exact Ea|exact Eb]; [by_clear E|exact Hx|first [exact Hy|exact I]].
    1-2: apply code_null in E; [by_clear E|exact Hl|exact I|exact I].
    1-2: apply code_scatinfos in E; [by_clear E|exact Hl|exact I|exact I].
    1-2: apply code_scatnames in E; [by_clear E|exact Hl|exact Hx|first [exact Hy|exact I]].
    1-2: apply code_arrays in E; [by_clear E|exact Hl|exact Hx|first [exact Hy|exact I]].
    1-2: apply code_coordinates in E; [by_clear E|exact Hl|exact Hx|first [exact Hy|exact I]].
    1-2: eapply code_clay in E; [|exact Hl| | |exact Ea|exact Eb]; [by_clear E|exact Hx|first [exact Hy|exact I]].
    1: destruct Hx as [Hx1 Hx], Hy as [Hy1 Hy]; pose proof (code_dependence _ _ l a b s s' Hl Hx Hy Ea Eb E) as E0; by_clear E0.
    1: destruct Hx as [Hx1 Hx]; pose proof (code_dependence _ [] l a b s s' Hl Hx (Forall_nil _) Ea Eb E) as E0; by_clear E0.
    1: destruct Hx as [Hx1 Hx], Hy as [Hy1 Hy], Hin as [Hin1 Hin2], Hin' as [Hin1' Hin2'];
      destruct (symbols_code _ (Hs _ eq_refl) (clear_symbols _ Hx Hin1 Hin2) _ l a b s s' Hl (clear_symbols _ Hy Hin1' Hin2') Ea Eb E) as [-> ->]; auto.
    1: destruct Hx as [Hx1 Hx], Hin as [Hin1 Hin2];
      destruct (symbols_code _ (Hs _ eq_refl) (clear_symbols _ Hx Hin1 Hin2) [] l a b s s' Hl (Forall_nil _) Ea Eb E) as [-> ->]; contradiction.
    1-2: apply code_extbody in E; [by_clear E|exact Hl|exact Hx|first [exact Hy|exact I]].
    1: destruct Hx as [Hx1 Hx], Hy as [Hy1 Hy]; pose proof (code_loop _ _ l a b s s' Hl Hx Hy Ea Eb E) as E0; by_clear E0.
    1: destruct Hx as [Hx1 Hx]; pose proof (code_loop _ [] l a b s s' Hl Hx (Forall_nil _) Ea Eb E) as E0; by_clear E0.
    1: destruct Hx as [Hx1 Hx], Hy as [Hy1 Hy]; pose proof (code_unroll _ _ l a b s s' Hl Hx Hy Ea Eb E) as E0; by_clear E0.
    1: destruct Hx as [Hx1 Hx]; pose proof (code_unroll _ [] l a b s s' Hl Hx (Forall_nil _) Ea Eb E) as E0; by_clear E0.
    1-4: destruct Hx.
  - intros t g dims a b c e Ha Hb Hc He ((Ia & Ib & Ic & Ie) & (Na & Nb & Nc & Ne) & Ht) n [t' g' dims' a' b' c' e'] l ta tb s s' Hl ((Ia' & Ib' & Ic' & Ie') & (Na' & Nb' & Nc' & Ne') & Ht') Ea Eb E.
    cbn [symbol_node symbol_type] in *. inv_bind Ea. inv_bind Ea. inv_bind Ea. inv_bind Ea. inv_bind Eb. inv_bind Eb. inv_bind Eb. inv_bind Eb.
    apply Ok_inj in Ea. apply Ok_inj in Eb. subst. rewrite <- !app_assoc in E. apply app_inv_head in E. cmp E.
    cmp E. apply symbol_type_inj in H0; auto. cmp E. cmp E. cmp E. cmp E. cmp E.
    destruct (generics_code a Ha Ia Na a' (l + 1) v v3 _ _ ltac:(lia) Ia' Na' E0 E4 E) as [-> F1].
    destruct (generics_code b Hb Ib Nb b' (l + 1) v0 v4 _ _ ltac:(lia) Ib' Nb' E1 E5 F1) as [-> F2].
    destruct (generics_code c Hc Ic Nc c' (l + 1) v1 v5 _ _ ltac:(lia) Ic' Nc' E2 E6 F2) as [-> F3].
    destruct (generics_code e He Ie Ne e' (l + 1) v2 v6 _ _ ltac:(lia) Ie' Ne' E3 E7 F3) as [-> ->]. split; [|reflexivity].
    assert (g = g').
    { clear - H2. destruct (Z.eqb_spec g UNDEFINED), (Z.eqb_spec g' UNDEFINED); try discriminate; [congruence|]. apply app_inv_head in H2. now apply print_Z_inj. }
    assert (dims = dims').
    { clear - H4. destruct (Z.eqb_spec dims UNDEFINED), (Z.eqb_spec dims' UNDEFINED); try discriminate; [congruence|]. apply app_inv_head in H4. now apply print_Z_inj. }
    now subst.
  - intros i Hc n g l a b s s' Hl Hg Ea Eb E. eapply (generic_code i None); eauto. discriminate.
  - intros i d Hd Hc n g l a b s s' Hl Hg Ea Eb E. eapply (generic_code i (Some d)); eauto. intros k x [= <-]. apply Hd.
Qed.
Lemma code_generic : code (generic_idump pointed one) (clear_generics cfg).
Proof.
  intros x y l a b s s' Hl Hx Hy Ea Eb E. eapply (code_generics_of (generic_node pointed one) x); [|exact Hl|exact Hy|exact Ea|exact Eb|exact E].
  revert Hx. apply Forall_impl. intros g Hg. now apply codes_mutual.
Qed.
Lemma code_symbols : code (symbols_idump pointed one) (Forall clear_symbol).
Proof.
  intros x y l a b s s' Hl Hx Hy Ea Eb E.
  assert (F : forall x, symbols_idump pointed one x l = (t <- nodes (symbol_node pointed one l) (line (l + 1) (lit "V")) 1 x ;;
    Ok (line l (match x with _ :: _ => lit "+-- osl_symbols_t" | [] => lit "+-- NULL symbols" end) ++ t ++ line (l + 1) []))) by (intros [|? ?]; reflexivity).
  rewrite F in Ea, Eb. eapply (symbols_code x); [|exact Hx|exact Hl|exact Hy|exact Ea|exact Eb|exact E].
  apply Forall_forall. intros g _. apply codes_mutual.
Qed.
Lemma code_statements : code (statements_idump pointed one) (Forall (clear_statement cfg)).
Proof.
  apply (code_chain (statement_node pointed one)); [nonl|nonl|discriminate|]. intros n x y l a b s s' Hl (H1 & H2 & H3 & H4) (H1' & H2' & H3' & H4') Ea Eb E.
  unfold statement_node in *. inv_bind Ea. inv_bind Ea. inv_bind Ea. inv_bind Ea. inv_bind Eb. inv_bind Eb. inv_bind Eb. inv_bind Eb. apply Ok_inj in Ea. apply Ok_inj in Eb. subst.
  rewrite <- !app_assoc in E. apply app_inv_head in E. cmp E.
  destruct (code_union _ _ (l + 1) _ _ _ _ ltac:(lia) H1 H1' E0 E4 E) as [G1 F1].
  destruct (code_union _ _ (l + 1) _ _ _ _ ltac:(lia) H2 H2' E1 E5 F1) as [G2 F2].
  destruct (code_list _ _ (l + 1) _ _ _ _ ltac:(lia) H3 H3' E2 E6 F2) as [G3 F3].
  destruct (code_generic _ _ (l + 1) _ _ _ _ ltac:(lia) H4 H4' E3 E7 F3) as [G4 ->]. destruct x, y; cbn in *; subst; auto.
Qed.
Lemma code_scops : code (scops_idump pointed one) (Forall (clear_scop cfg)).
Proof.
  apply (code_chain (scop_node pointed one)); [nonl|nonl|discriminate|].
  intros n x y l a b s s' Hl (H1 & H2 & H3 & H4 & H5 & H6) (H1' & H2' & H3' & H4' & H5' & H6') Ea Eb E.
  unfold scop_node in *. inv_bind Ea. inv_bind Ea. inv_bind Ea. inv_bind Ea. inv_bind Ea. inv_bind Eb. inv_bind Eb. inv_bind Eb. inv_bind Eb. inv_bind Eb.
  apply Ok_inj in Ea. apply Ok_inj in Eb. subst.
  rewrite <- !app_assoc in E. apply app_inv_head in E. cmp E. cmp E. apply app_inv_head in H0. apply print_Z_inj in H0. cmp E.
  cmpx E; [|nonl; apply H1|nonl; apply H1']. apply app_inv_head in H8. apply pr_inj in H8; auto. cmp E.
  destruct (code_union _ _ (l + 1) _ _ _ _ ltac:(lia) H2 H2' E0 E5 E) as [G1 F1].
  destruct (code_generic _ _ (l + 1) _ _ _ _ ltac:(lia) H3 H3' E1 E6 F1) as [G2 F2].
  destruct (code_statements _ _ (l + 1) _ _ _ _ ltac:(lia) H4 H4' E2 E7 F2) as [G3 F3].
  destruct (code_interface _ _ (l + 1) _ _ _ _ ltac:(lia) H5 H5' E3 E8 F3) as [G4 F4].
  destruct (code_generic _ _ (l + 1) _ _ _ _ ltac:(lia) H6 H6' E4 E9 F4) as [G5 ->]. destruct x, y; cbn in *; subst; auto.
Qed.
End ONE.
Lemma code_one fuel : each_pointed pointed (clear_statement cfg) -> code (statement_idump_one pointed fuel) (clear_statement cfg).
Proof.
  intros Hp. induction fuel as [|k IH]; intros x y l a b s s' Hl Hx Hy Ea Eb E; cbn [statement_idump_one] in *; [discriminate|].
  destruct (code_statements _ IH Hp [x] [y] l a b s s' Hl) as [E' ->]; auto. now injection E' as ->.
Qed.
End CODES.
