(** * PropDicts: objective terms as dictionaries (C45) *)
From Verif Require Import Base Pulp Params Optimizer Types Constraints Objectives Emit Prim Terms SpecDicts.
Open Scope Q_scope.
Open Scope string_scope.

(** ** Reading keyword arguments *)
Lemma assoc_set_same d k v : assoc k (dict_set d k v) = Some v.
Proof.
  induction d as [|[m x] d IH]; cbn [dict_set]; [cbn [assoc]; now rewrite String.eqb_refl|].
  destruct (k =? m) eqn:E; cbn [assoc]; rewrite E; auto.
Qed.
Lemma assoc_set_other d k m v : m <> k -> assoc m (dict_set d k v) = assoc m d.
Proof.
  intros N. induction d as [|[m' x] d IH]; cbn [dict_set].
  - cbn [assoc]. apply String.eqb_neq in N. now rewrite N.
  - destruct (k =? m') eqn:E; cbn [assoc].
    + apply String.eqb_eq in E. subst m'. apply String.eqb_neq in N. now rewrite N.
    + destruct (m =? m'); auto.
Qed.
Lemma set_same d k v : assoc k d = Some v -> dict_set d k v = d.
Proof.
  induction d as [|[m x] d IH]; cbn [assoc dict_set]; [discriminate|].
  destruct (k =? m) eqn:E; intros H; [injection H as ->; auto|rewrite IH; auto].
Qed.
Lemma keys_set ks d k v w : assoc k d = Some w -> only_keys ks (dict_set d k v) = only_keys ks d.
Proof.
  unfold only_keys. induction d as [|[m x] d IH]; cbn [assoc dict_set]; [discriminate|].
  destruct (k =? m) eqn:E; intros H; cbn [forallb fst]; [reflexivity|now rewrite IH].
Qed.
Lemma only_keys_iff ks d : only_keys ks d = true <-> keys_among ks d.
Proof.
  unfold only_keys, keys_among. rewrite forallb_forall. split.
  - intros H k v IN. specialize (H _ IN). cbn [fst] in H. apply existsb_exists in H. destruct H as (x & IN' & E).
    apply String.eqb_eq in E. now subst.
  - intros H [k v] IN. cbn [fst]. apply existsb_exists. exists k. split; [eapply H; eauto|apply String.eqb_refl].
Qed.
Lemma kw_str_iff d k def s : kw_str d k def = Ok s <-> text d k def s.
Proof.
  unfold kw_str, text. destruct (assoc k d) as [[| | | |]|]; cbn; split; intros H;
    try (destruct H as [H|[H H']]); try discriminate; try (injection H as ->; auto; fail).
  - destruct def; [injection H as ->; auto|discriminate].
  - now subst.
Qed.
Lemma kw_num_iff d k def s : kw_num d k def = Ok s <-> number d k def s.
Proof.
  unfold kw_num, number. destruct (assoc k d) as [[| | | |]|]; cbn; split; intros H;
    try (destruct H as [H|[H H']]); try discriminate; try (injection H as ->; auto; fail).
  - destruct def; [injection H as ->; auto|discriminate].
  - now subst.
Qed.
Lemma kw_opt_iff d k o : kw_opt d k = Ok o <-> optional_text d k o.
Proof.
  unfold kw_opt, optional_text. destruct (assoc k d) as [[| | | |]|]; destruct o; split; intros H;
    try (destruct H as [H|H]); try discriminate; try (injection H as ->; auto; fail); auto.
Qed.
Lemma kw_tn_iff d k x : kw_tn d k = Ok x <-> assoc k d = Some (match x with TTerm t => VTerm t | TNumber q => VNum q end).
Proof.
  unfold kw_tn. destruct (assoc k d) as [[| | | |]|]; destruct x; split; intros H; try discriminate; injection H as ->; auto.
Qed.
Lemma kw_term_iff d k x : kw_term d k = Ok x <-> assoc k d = Some (VTerm x).
Proof.
  unfold kw_term. destruct (assoc k d) as [[| | | |]|]; split; intros H; try discriminate; injection H as ->; auto.
Qed.
Ltac unb H := repeat (apply rbind_ok in H; let x := fresh "x" in let E := fresh "E" in destruct H as (x & E & H)).
Lemma term_kwargs_iff d t : term_kwargs d = Ok t <-> simple_says d t.
Proof.
  unfold term_kwargs, simple_says. rewrite <- (only_keys_iff term_fields).
  destruct (only_keys term_fields d) eqn:K; cbn [negb].
  - split.
    + intros H. unb H. injection H as <-. cbn [t_variable t_asset_type t_interval_data t_asset_name t_coefficient t_type].
      rewrite <- !kw_str_iff, <- !kw_opt_iff, <- !kw_num_iff. auto 10.
    + intros (_ & A & B & C & D & E & F). rewrite <- !kw_str_iff, <- !kw_opt_iff, <- !kw_num_iff in *.
      rewrite A, B, C, D, E, F. cbn [rbind]. destruct t; reflexivity.
  - split; [discriminate|intros [H _]; discriminate].
Qed.
Definition tn_obj (x : term_or_number) : pyval := match x with TTerm t => VTerm t | TNumber q => VNum q end.
Lemma two_kwargs_iff d t : two_kwargs d = Ok t <->
  only_keys two_fields d = true /\ text d "function" None (w_function t) /\ assoc "a" d = Some (tn_obj (w_a t))
  /\ assoc "b" d = Some (tn_obj (w_b t)) /\ number d "M" None (w_M t) /\ optional_text d "interval_data" (w_interval_data t)
  /\ number d "coefficient" (Some 1) (w_coefficient t) /\ text d "type" (Some "complex") (w_type t).
Proof.
  unfold two_kwargs. destruct (only_keys two_fields d) eqn:K; cbn [negb].
  - split.
    + intros H. unb H. injection H as <-. cbn [w_function w_a w_b w_M w_interval_data w_coefficient w_type].
      rewrite <- !kw_str_iff, <- !kw_opt_iff, <- !kw_num_iff. unfold tn_obj. rewrite <- !kw_tn_iff. auto 12.
    + intros (_ & A & B & C & D & E & F & G). unfold tn_obj in *. rewrite <- ?kw_str_iff, <- ?kw_opt_iff, <- ?kw_num_iff, <- ?kw_tn_iff in *.
      rewrite A, B, C, D, E, F, G. cbn [rbind]. destruct t; reflexivity.
  - split; [discriminate|intros [H _]; discriminate].
Qed.
Lemma many_kwargs_iff d t : many_kwargs d = Ok t <->
  only_keys many_fields d = true /\ text d "function" None (m_function t) /\ assoc "variables" d = Some (VTerm (m_variables t))
  /\ number d "M" None (m_M t) /\ number d "constant" (Some 0) (m_constant t)
  /\ number d "coefficient" (Some 1) (m_coefficient t) /\ text d "type" (Some "complex") (m_type t).
Proof.
  unfold many_kwargs. destruct (only_keys many_fields d) eqn:K; cbn [negb].
  - split.
    + intros H. unb H. injection H as <-. cbn [m_function m_variables m_M m_constant m_coefficient m_type].
      rewrite <- !kw_str_iff, <- !kw_num_iff, <- !kw_term_iff. auto 12.
    + intros (_ & A & B & C & D & E & F). rewrite <- ?kw_str_iff, <- ?kw_opt_iff, <- ?kw_num_iff, <- ?kw_term_iff in *.
      rewrite A, B, C, D, E, F. cbn [rbind]. destruct t; reflexivity.
  - split; [discriminate|intros [H _]; discriminate].
Qed.
(** dataclasses.asdict and back *)
Lemma term_kwargs_dict t : term_kwargs (term_dict t) = Ok t.
Proof. destruct t as [v [ty|] [i|] [n|] c s]; reflexivity. Qed.
Lemma term_or_float_iff v x : term_or_float v = Ok x <-> exists y, x = tn_obj y /\ side_says v y.
Proof.
  unfold term_or_float, tn_obj. split.
  - destruct v as [|s|q|t|d]; intros H; try discriminate.
    + injection H as <-. exists (TNumber q). split; [|cbn]; auto.
    + injection H as <-. exists (TTerm t). split; [|left]; auto.
    + unb H. injection H as <-. exists (TTerm x0). split; auto. right. exists d. split; auto. now apply term_kwargs_iff.
  - intros ([t|q] & -> & S); cbn in S.
    + destruct S as [->|(d & -> & S)]; auto. apply term_kwargs_iff in S. rewrite S. reflexivity.
    + now subst v.
Qed.
Lemma term_or_float_again y : term_or_float (tn_obj y) = Ok (tn_obj y).
Proof. destruct y; reflexivity. Qed.
Lemma tn_obj_inj x y : tn_obj x = tn_obj y -> x = y.
Proof. destruct x, y; cbn; intros H; congruence. Qed.

(** ** The two kinds of function terms *)
Lemma text_none d k s : text d k None s <-> assoc k d = Some (VStr s).
Proof. unfold text. split; [intros [H|[_ H]]; [auto|discriminate]|auto]. Qed.
Lemma number_none d k s : number d k None s <-> assoc k d = Some (VNum s).
Proof. unfold number. split; [intros [H|[_ H]]; [auto|discriminate]|auto]. Qed.
Lemma to_float_iff v x : to_float v = Ok x <-> exists q, v = VNum q /\ x = VNum q.
Proof. destruct v; cbn; split; try discriminate; try (intros (? & H & _); discriminate).
  - intros H. injection H as <-. eauto. - intros (r & E & ->). now injection E as ->. Qed.

Ltac other := repeat match goal with
  | |- context [assoc ?m (dict_set ?d ?k ?v)] => rewrite (assoc_set_other d k m v) by discriminate
  end.
Lemma factory_two d f t d' : assoc "function" d = Some (VStr f) -> two_name f ->
  (factory_dict d = Ok (t, d') <->
   exists w, t = TTwo w /\ w_function w = f /\ two_says d w /\
     d' = dict_set (dict_set d "a" (tn_obj (w_a w))) "b" (tn_obj (w_b w))).
Proof.
  intros F N. unfold factory_dict. rewrite F. unfold two_name in N. rewrite N. split.
  - intros H. unb H. injection H as <- <-.
    apply term_or_float_iff in E0, E2. destruct E0 as (ya & -> & SA), E2 as (yb & -> & SB).
    apply to_float_iff in E4. destruct E4 as (q & -> & ->).
    destruct (assoc "a" d) as [va|] eqn:A; cbn in E; [injection E as <-|discriminate].
    rewrite assoc_set_other in E1 by discriminate.
    destruct (assoc "b" d) as [vb|] eqn:B; cbn in E1; [injection E1 as <-|discriminate].
    rewrite !assoc_set_other in E3 by discriminate.
    destruct (assoc "M" d) as [vm|] eqn:M; cbn in E3; [injection E3 as ->|discriminate].
    assert (assoc "M" (dict_set (dict_set d "a" (tn_obj ya)) "b" (tn_obj yb)) = Some (VNum q)) as M2 by (other; auto).
    rewrite (set_same _ _ _ M2) in *.
    apply two_kwargs_iff in E5. destruct E5 as (K & W1 & W2 & W3 & W4 & W5 & W6 & W7).
    unfold text, number, optional_text in W1, W4, W5, W6, W7.
    revert W1 W4 W5 W6 W7. other. intros W1 W4 W5 W6 W7. rewrite assoc_set_same in W3.
    rewrite assoc_set_other, assoc_set_same in W2 by discriminate.
    injection W2 as W2. injection W3 as W3. apply tn_obj_inj in W2, W3. subst ya yb.
    rewrite (keys_set two_fields _ "b" _ vb), (keys_set two_fields _ "a" _ va) in K by (other; auto).
    exists x5. split; auto. split. { destruct W1 as [W1|[_ W1]]; [congruence|discriminate]. } split; auto.
    unfold two_says. rewrite <- (only_keys_iff two_fields). splits; eauto.
  - intros (w & -> & WF & (K & W1 & (va & A & SA) & (vb & B & SB) & W4 & W5 & W6 & W7) & ->).
    rewrite A. cbn [of_option rbind]. assert (term_or_float va = Ok (tn_obj (w_a w))) as -> by (apply term_or_float_iff; eauto).
    cbn [rbind]. other. rewrite B. cbn [of_option rbind].
    assert (term_or_float vb = Ok (tn_obj (w_b w))) as -> by (apply term_or_float_iff; eauto).
    cbn [rbind]. other. assert (assoc "M" d = Some (VNum (w_M w))) as M by now apply number_none.
    rewrite M. cbn [of_option rbind to_float].
    assert (assoc "M" (dict_set (dict_set d "a" (tn_obj (w_a w))) "b" (tn_obj (w_b w))) = Some (VNum (w_M w))) as M2 by (other; auto).
    rewrite (set_same _ _ _ M2).
    replace (two_kwargs _) with (Ok w); [reflexivity|]. symmetry. apply two_kwargs_iff.
    unfold text, number, optional_text. other. rewrite assoc_set_same. rewrite ?assoc_set_same.
    apply only_keys_iff in K.
    rewrite (keys_set two_fields _ "b" _ vb), (keys_set two_fields _ "a" _ va) by (other; auto).
    splits; auto.
Qed.
Lemma factory_many d f t d' : assoc "function" d = Some (VStr f) -> many_name f ->
  (factory_dict d = Ok (t, d') <->
   exists w, t = TMany w /\ m_function w = f /\ many_says d w /\ d' = dict_set d "variables" (VTerm (m_variables w))).
Proof.
  intros F [N1 N2]. unfold factory_dict. rewrite F, N1, N2. cbn [rassert rbind]. split.
  - intros H. unb H. injection H as <- <-.
    destruct (assoc "variables" d) as [v|] eqn:A; cbn in E; [injection E as <-|discriminate].
    assert (term_says v x1) as S.
    { destruct v; try discriminate; injection E0 as <-; [rewrite term_kwargs_dict in E1; injection E1 as ->; now left|].
      right. eexists. split; eauto. now apply term_kwargs_iff. }
    apply to_float_iff in E3. destruct E3 as (q & -> & ->).
    rewrite assoc_set_other in E2 by discriminate.
    destruct (assoc "M" d) as [vm|] eqn:M; cbn in E2; [injection E2 as ->|discriminate].
    assert (assoc "M" (dict_set d "variables" (VTerm x1)) = Some (VNum q)) as M2 by (other; auto).
    rewrite (set_same _ _ _ M2) in *.
    apply many_kwargs_iff in E4. destruct E4 as (K & W1 & W2 & W4 & W5 & W6 & W7).
    unfold text, number, optional_text in W1, W4, W5, W6, W7.
    revert W1 W4 W5 W6 W7. other. intros W1 W4 W5 W6 W7. rewrite assoc_set_same in W2. injection W2 as ->.
    rewrite (keys_set many_fields _ "variables" _ v) in K by auto.
    exists x4. split; auto. split. { destruct W1 as [W1|[_ W1]]; [congruence|discriminate]. } split; auto.
    unfold many_says. rewrite <- (only_keys_iff many_fields). splits; eauto.
  - intros (w & -> & WF & (K & W1 & (v & A & S) & W4 & W5 & W6 & W7) & ->).
    rewrite A. cbn [of_option rbind].
    assert (exists vd, match v with VDict vd => Ok vd | VTerm t => Ok (term_dict t) | _ => Err TypeErr end = Ok vd
                       /\ term_kwargs vd = Ok (m_variables w)) as (vd & -> & V).
    { destruct S as [->|(dd & -> & S)]; [eexists; split; eauto; apply term_kwargs_dict|]. eexists; split; eauto. now apply term_kwargs_iff. }
    cbn [rbind]. rewrite V. cbn [rbind]. other.
    assert (assoc "M" d = Some (VNum (m_M w))) as M by now apply number_none. rewrite M. cbn [of_option rbind to_float].
    assert (assoc "M" (dict_set d "variables" (VTerm (m_variables w))) = Some (VNum (m_M w))) as M2 by (other; auto).
    rewrite (set_same _ _ _ M2).
    replace (many_kwargs _) with (Ok w); [reflexivity|]. symmetry. apply many_kwargs_iff.
    unfold text, number, optional_text. other. rewrite assoc_set_same. apply only_keys_iff in K.
    rewrite (keys_set many_fields _ "variables" _ v) by auto. splits; auto.
Qed.

(** ** C45 *)
(** A dictionary is read exactly as it is documented: [term_factory] returns a term iff the dictionary describes it
    (left-out keys have their defaults, the function's name decides the kind, nothing else may be in it). *)
Theorem C45_factory_reads : forall d t,
  (exists x, term_factory (ArgDict d) = Ok (t, x)) <-> describes d t.
Proof.
  intros d t. assert ((exists x, term_factory (ArgDict d) = Ok (t, x)) <-> exists d', factory_dict d = Ok (t, d')) as ->.
  { cbn [term_factory]. split; intros (x & H).
    - unb H. destruct x0 as [u e]. injection H as <- <-. eauto.
    - rewrite H. cbn. eauto. }
  destruct (assoc "function" d) as [v|] eqn:F.
  - destruct v as [|f| | |];
      try (split; [intros (d' & H); unfold factory_dict in H; rewrite F in H; discriminate|];
           destruct t as [t|t|t]; intros D;
             [destruct D as [D _]; congruence|destruct D as (_ & _ & D & _); apply text_none in D; congruence
             |destruct D as (_ & _ & D & _); apply text_none in D; congruence]).
    destruct (contains "two_variables" f) eqn:N.
    + split.
      * intros (d' & H). apply (factory_two d f) in H; auto. destruct H as (w & -> & <- & W & _). split; auto.
      * destruct t as [t|t|t]; intros D.
        -- destruct D; congruence.
        -- destruct D as [D1 D2]. eexists. apply (factory_two d f); auto. exists t. splits; eauto.
           destruct D2 as (_ & D2 & _). apply text_none in D2. congruence.
        -- destruct D as [[D1 _] (_ & D2 & _)]. apply text_none in D2. assert (m_function t = f) by congruence. congruence.
    + destruct (contains "many_variables" f) eqn:N2.
      * split.
        -- intros (d' & H). apply (factory_many d f) in H; [|auto|split; auto]. destruct H as (w & -> & <- & W & _). split; auto. split; auto.
        -- destruct t as [t|t|t]; intros D.
           ++ destruct D; congruence.
           ++ destruct D as [D1 (_ & D2 & _)]. apply text_none in D2. assert (w_function t = f) by congruence. unfold two_name in D1. congruence.
           ++ destruct D as [D1 D2]. eexists. apply (factory_many d f); [auto|split; auto|]. exists t. splits; eauto.
              destruct D2 as (_ & D2 & _). apply text_none in D2. congruence.
      * split.
        -- intros (d' & H). unfold factory_dict in H. rewrite F, N, N2 in H. discriminate.
        -- destruct t as [t|t|t]; intros D.
           ++ destruct D; congruence.
           ++ destruct D as [D1 (_ & D2 & _)]. apply text_none in D2. assert (w_function t = f) by congruence. unfold two_name in D1. congruence.
           ++ destruct D as [[_ D1] (_ & D2 & _)]. apply text_none in D2. assert (m_function t = f) by congruence. congruence.
  - split.
    + intros (d' & H). unfold factory_dict in H. rewrite F in H. unb H. injection H as <- <-. split; auto. now apply term_kwargs_iff.
    + destruct t as [t|t|t]; intros D.
      * destruct D as [_ D]. apply term_kwargs_iff in D. exists d. unfold factory_dict. now rewrite F, D.
      * destruct D as (_ & _ & D & _). apply text_none in D. congruence.
      * destruct D as (_ & _ & D & _). apply text_none in D. congruence.
Qed.
Lemma factory_proper d t d' : factory_dict d = Ok (t, d') -> proper_term t.
Proof.
  intros H. assert (describes d t) as D. { apply C45_factory_reads. exists (ArgDict d'). cbn. now rewrite H. }
  destruct t; cbn in *; tauto.
Qed.
Lemma factory_function d t d' : factory_dict d = Ok (t, d') -> assoc "function" d' = assoc "function" d.
Proof.
  intros H. destruct (assoc "function" d) as [[|f| | |]|] eqn:F;
    try (unfold factory_dict in H; rewrite F in H; discriminate).
  - destruct (contains "two_variables" f) eqn:N; [|destruct (contains "many_variables" f) eqn:N2].
    + apply (factory_two d f) in H; auto. destruct H as (w & _ & _ & _ & ->). other. auto.
    + apply (factory_many d f) in H; [|auto|split; auto]. destruct H as (w & _ & _ & _ & ->). other. auto.
    + unfold factory_dict in H. rewrite F, N, N2 in H. discriminate.
  - unfold factory_dict in H. rewrite F in H. unb H. now injection H as <- <-.
Qed.
(** The call rewrites the dictionary it is given; reading the rewritten dictionary gives the same term and changes
    nothing more, so an objective can be used any number of times. *)
Theorem C45_factory_again : forall x t x', term_factory x = Ok (t, x') -> term_factory x' = Ok (t, x').
Proof.
  intros [d|o] t x' H; cbn [term_factory] in H.
  2: { unb H. destruct x as [u e]. injection H as <- <-. cbn [term_factory]. now rewrite E. }
  unb H. destruct x as [u e]. injection H as <- <-. cbn [term_factory fst snd].
  enough (factory_dict e = Ok (u, e)) as -> by reflexivity.
  pose proof (factory_function _ _ _ E) as FN. rename E into H.
  destruct (assoc "function" d) as [[|f| | |]|] eqn:F;
    try (unfold factory_dict in H; rewrite F in H; discriminate).
  - destruct (contains "two_variables" f) eqn:N; [|destruct (contains "many_variables" f) eqn:N2].
    + apply (factory_two d f) in H; auto. destruct H as (w & -> & WF & W & ->).
      set (e := dict_set _ "b" _) in *.
      assert (assoc "b" e = Some (tn_obj (w_b w))) as B by apply assoc_set_same.
      assert (assoc "a" e = Some (tn_obj (w_a w))) as A by (unfold e; other; apply assoc_set_same).
      apply (factory_two e f); auto. exists w. split; auto. split; auto. split; [|now rewrite (set_same e "a"), (set_same e "b")].
      destruct W as (K & W1 & (va & WA & _) & (vb & WB & _) & W4 & W5 & W6 & W7). unfold two_says.
      rewrite <- (only_keys_iff two_fields) in *. unfold text, number, optional_text in *.
      assert (only_keys two_fields e = true) as K'.
      { unfold e. rewrite (keys_set two_fields _ "b" _ vb), (keys_set two_fields _ "a" _ va); auto. other. auto. }
      assert (forall x, side_says (tn_obj x) x) as S by (intros []; cbn; auto; left; auto).
      unfold e in *. splits; [exact K'| |eexists; split; [exact A|apply S]|eexists; split; [exact B|apply S]
        | | | |]; other; auto.
    + apply (factory_many d f) in H; [|auto|split; auto]. destruct H as (w & -> & WF & W & ->).
      set (e := dict_set _ _ _) in *.
      assert (assoc "variables" e = Some (VTerm (m_variables w))) as A by apply assoc_set_same.
      apply (factory_many e f); [auto|split; auto|]. exists w. split; auto. split; auto. split; [|now rewrite (set_same e "variables")].
      destruct W as (K & W1 & (va & WA & _) & W4 & W5 & W6 & W7). unfold many_says.
      rewrite <- (only_keys_iff many_fields) in *. unfold text, number, optional_text in *.
      assert (only_keys many_fields e = true) as K' by (unfold e; now rewrite (keys_set many_fields _ _ _ va)).
      unfold e in *. splits; [exact K'| |eexists; split; [exact A|left; auto]| | | |]; other; auto.
    + unfold factory_dict in H. rewrite F, N, N2 in H. discriminate.
  - unfold factory_dict in H |- *. rewrite F in H. unb H. injection H as <- <-. rewrite FN. now rewrite E.
Qed.
(** A term object is returned as it is. *)
Theorem C45_factory_object : forall t, proper_term t <-> term_factory (ArgTerm t) = Ok (t, ArgTerm t).
Proof.
  intros t. split.
  - destruct t as [t|t|t]; cbn [proper_term term_factory as_dict]; intros N.
    + unfold factory_dict. cbn [assoc term_dict]. cbn. destruct t as [v [ty|] [i|] [n|] c s]; reflexivity.
    + set (d := _ :: _). assert (exists d', factory_dict d = Ok (TTwo t, d')) as (d' & ->); [|reflexivity].
      eexists. apply (factory_two d (w_function t)); auto. exists t. split; auto. split; auto. split; [|reflexivity].
      unfold two_says, text, number, optional_text, d. cbn [assoc]. cbn.
      assert (forall x, side_says (tn_val x) x) as S.
      { intros [u|]; cbn; auto. right. eexists. split; eauto. apply term_kwargs_iff, term_kwargs_dict. }
      splits; eauto. { apply only_keys_iff. reflexivity. } destruct (w_interval_data t); cbn; auto.
    + set (d := _ :: _). assert (exists d', factory_dict d = Ok (TMany t, d')) as (d' & ->); [|reflexivity].
      eexists. apply (factory_many d (m_function t)); auto. exists t. split; auto. split; auto. split; [|reflexivity].
      unfold many_says, text, number, optional_text, d. cbn [assoc]. cbn.
      splits; eauto. { apply only_keys_iff. reflexivity. }
      eexists. split; eauto. right. eexists. split; eauto. apply term_kwargs_iff, term_kwargs_dict.
  - cbn [term_factory]. intros H. unb H. destruct x as [u e]. injection H as -> . eapply factory_proper; eauto.
Qed.
(** Every term the library makes of an argument is such an object. *)
Theorem C45_factory_idempotent : forall x t x', term_factory x = Ok (t, x') -> term_factory (ArgTerm t) = Ok (t, ArgTerm t).
Proof.
  intros x t x' H. apply C45_factory_object. destruct x; cbn [term_factory] in H; unb H; destruct x as [u e]; injection H as <- <-;
    eapply factory_proper; eauto.
Qed.

(** ** Whole objectives *)
(** [x] is read as [t] *)
Definition arg_is (x : term_arg) (t : one_term) : Prop :=
  match x with
  | ArgDict d => describes d t
  | ArgTerm u => u = t /\ proper_term t
  end.
Lemma arg_is_iff x t : arg_is x t <-> exists x', term_factory x = Ok (t, x').
Proof.
  destruct x as [d|u]; cbn [arg_is]; [symmetry; apply C45_factory_reads|]. split.
  - intros [-> P]. apply C45_factory_object in P. eauto.
  - intros (x' & H). assert (proper_term t) as P. { cbn in H. unb H. destruct x as [v e]. injection H as <- <-. eapply factory_proper; eauto. }
    split; auto. cbn [term_factory] in H. unb H. destruct x as [v e]. injection H as <- <-. 
    destruct u as [u|u|u].
    + assert (factory_dict (as_dict (TSimple u)) = Ok (TSimple u, as_dict (TSimple u))).
      { destruct u as [w [ty|] [i|] [n|] c s]; reflexivity. } congruence.
    + assert (assoc "function" (as_dict (TTwo u)) = Some (VStr (w_function u))) as F by reflexivity.
      destruct (contains "two_variables" (w_function u)) eqn:N.
      * assert (proper_term (TTwo u)) as PU by exact N. apply C45_factory_object in PU. cbn [term_factory] in PU. rewrite E in PU. now injection PU.
      * destruct (contains "many_variables" (w_function u)) eqn:N2; [|unfold factory_dict in E; rewrite F, N, N2 in E; discriminate].
        unfold factory_dict in E. rewrite F, N, N2 in E. discriminate.
    + assert (assoc "function" (as_dict (TMany u)) = Some (VStr (m_function u))) as F by reflexivity.
      destruct (contains "two_variables" (m_function u)) eqn:N.
      * unfold factory_dict in E. rewrite F, N in E. discriminate.
      * destruct (contains "many_variables" (m_function u)) eqn:N2; [|unfold factory_dict in E; rewrite F, N, N2 in E; discriminate].
        assert (proper_term (TMany u)) as PU by (split; auto). apply C45_factory_object in PU. cbn [term_factory] in PU. rewrite E in PU. now injection PU.
Qed.
(** An objective dictionary builds the same program - the same objective over the same variables and constraints, or the
    same error - as the CustomObjectiveFunction of the terms that it describes. *)
Theorem C45_dict_is_function : forall args ts iv d o,
  Forall2 arg_is args ts ->
  get_objective_arg (ODict (Some args)) iv d o = get_objective_arg (OTerms ts) iv d o.
Proof.
  intros args ts iv d o F.
  assert (exists rs, rmap term_factory args = Ok rs /\ map fst rs = ts) as (rs & R & <-).
  { induction F as [|x t l l' A F IH]; [exists []; auto|]. apply arg_is_iff in A. destruct A as (x' & A), IH as (rs & R & RT).
    exists ((t, x') :: rs). cbn [rmap]. rewrite A. cbn [rbind]. rewrite R. cbn [rbind map fst]. now rewrite RT. }
  unfold get_objective_arg. cbn [resolve_objective]. rewrite R. reflexivity.
Qed.
(** If no list of terms is described then the call fails and builds nothing. *)
Theorem C45_bad_dict : forall args iv d o,
  (forall ts, ~ Forall2 arg_is args ts) -> exists e, get_objective_arg (ODict (Some args)) iv d o = Err e.
Proof.
  intros args iv d o N. unfold get_objective_arg. cbn [resolve_objective].
  destruct (rmap term_factory args) as [rs|e] eqn:R; [|exists e; reflexivity].
  exfalso. apply (N (map fst rs)). clear N. revert rs R. induction args as [|x l IH]; intros rs R; cbn [rmap] in R.
  - injection R as <-. constructor.
  - unb R. injection R as <-. constructor; [|apply IH; auto]. apply arg_is_iff. destruct x0; eauto.
Qed.
(** Reusing the dictionary after a call: same objective, and the dictionary stays as it is. *)
Theorem C45_dict_reused : forall x obj x', resolve_objective x = Ok (obj, x') -> resolve_objective x' = Ok (obj, x').
Proof.
  intros [s|[args|]|ts] obj x' H; cbn [resolve_objective] in H; try discriminate; try (injection H as <- <-; reflexivity).
  unb H. injection H as <- <-. cbn [resolve_objective]. 
  enough (rmap term_factory (map snd x) = Ok x) as -> by reflexivity.
  revert x E. induction args as [|y l IH]; intros rs E; cbn [rmap] in E.
  - injection E as <-. reflexivity.
  - unb E. injection E as <-. cbn [map snd rmap]. destruct x as [t y']. cbn [snd]. rewrite (C45_factory_again _ _ _ E0).
    cbn [rbind]. rewrite (IH _ E1). reflexivity.
Qed.
(** asdict of a list of terms describes them. *)
Theorem C45_round_trip : forall ts iv d o, Forall proper_term ts ->
  get_objective_arg (ODict (Some (map (fun t => ArgDict (as_dict t)) ts))) iv d o = get_objective_arg (OTerms ts) iv d o.
Proof.
  intros ts iv d o F. apply C45_dict_is_function. induction F as [|t l P F IH]; cbn [map]; constructor; auto.
  cbn [arg_is]. apply C45_factory_reads. apply C45_factory_object in P. cbn [term_factory] in P. unb P. destruct x as [u e].
  injection P as ->. exists (ArgDict e). cbn [term_factory]. now rewrite E.
Qed.
Theorem C45_no_terms : forall iv d o, get_objective_arg (ODict None) iv d o = Err KeyErr.
Proof. reflexivity. Qed.

(** The objective of the documentation (docs/docs/how-to/custom-objectives.md): a dictionary with left-out keys. *)
Definition sample_dict : list term_arg :=
  [ ArgDict [("asset_type", VStr "site"); ("variable", VStr "import_power_mwh"); ("interval_data", VStr "electricity_prices")];
    ArgDict [("function", VStr "max_two_variables");
             ("a", VDict [("asset_type", VStr "site"); ("variable", VStr "import_power_mwh")]); ("b", VNum 40);
             ("M", VNum 100); ("coefficient", VNum 200)];
    ArgDict [("function", VStr "max_many_variables"); ("variables", VDict [("asset_type", VStr "site"); ("variable", VStr "import_power_mwh")]);
             ("M", VNum 100); ("coefficient", VNum 2)] ].
Definition sample_terms : list one_term :=
  let imp := mkTerm "import_power_mwh" (Some "site") None None 1 "simple" in
  [ TSimple (mkTerm "import_power_mwh" (Some "site") (Some "electricity_prices") None 1 "simple");
    TTwo (mkTwo "max_two_variables" (TTerm imp) (TNumber 40) 100 None 200 "complex");
    TMany (mkMany "max_many_variables" imp 100 0 2 "complex") ].
Example sample_dict_described : Forall2 arg_is sample_dict sample_terms.
Proof. repeat (constructor; [apply arg_is_iff; eexists; vm_compute; reflexivity|]). constructor. Qed.
Example sample_dict_rewritten : exists x', resolve_objective (ODict (Some sample_dict)) = Ok (ObjTerms sample_terms, x')
  /\ x' <> ODict (Some sample_dict).
Proof. eexists. split; [vm_compute; reflexivity|discriminate]. Qed.
(** a misspelt key is an error *)
Example sample_typo : exists e, term_factory (ArgDict [("variabel", VStr "import_power_mwh")]) = Err e.
Proof. eexists. vm_compute. reflexivity. Qed.
