(** * Emit: proof machinery for the linear programs (evaluation, emission, lookup). *)
From Verif Require Import Base Pulp Params Optimizer Types.
From Verif Require Export SpecOpt.
Open Scope Q_scope.

(** ** Evaluation *)
Lemma Qsum_app l1 l2 : Qsum (l1 ++ l2) == Qsum l1 + Qsum l2.
Proof. induction l1; simpl; [lra|rewrite IHl1; lra]. Qed.
Lemma Qsum_concat ls : Qsum (List.concat ls) == Qsum (map Qsum ls).
Proof. induction ls; simpl; [lra|rewrite Qsum_app, IHls; lra]. Qed.
Lemma Qsum_map_ext {A} (f g : A -> Q) l : (forall x, In x l -> f x == g x) -> Qsum (map f l) == Qsum (map g l).
Proof.
  induction l; simpl; intros H; [lra|].
  rewrite (H a (or_introl eq_refl)), IHl; [lra|]. intros; apply H; now right.
Qed.
Lemma Qsum_map_plus {A} (f g : A -> Q) l :
  Qsum (map (fun x => f x + g x) l) == Qsum (map f l) + Qsum (map g l).
Proof. induction l; simpl; [lra|rewrite IHl; lra]. Qed.
Lemma Qsum_map_minus {A} (f g : A -> Q) l :
  Qsum (map (fun x => f x - g x) l) == Qsum (map f l) - Qsum (map g l).
Proof. induction l; simpl; [lra|rewrite IHl; lra]. Qed.
Lemma Qsum_map_scale {A} (f : A -> Q) q l : Qsum (map (fun x => q * f x) l) == q * Qsum (map f l).
Proof. induction l; simpl; [lra|rewrite IHl; lra]. Qed.
Lemma Qsum_map_zero {A} (f : A -> Q) l : (forall x, In x l -> f x == 0) -> Qsum (map f l) == 0.
Proof.
  induction l; simpl; intros H; [lra|].
  rewrite (H a (or_introl eq_refl)), IHl; [lra|]. intros; apply H; now right.
Qed.
Lemma Qsum_nonneg l : Forall (fun q => 0 <= q) l -> 0 <= Qsum l.
Proof. induction 1; simpl; lra. Qed.
Lemma Qsum_map_nonneg {A} (f : A -> Q) l : (forall x, In x l -> 0 <= f x) -> 0 <= Qsum (map f l).
Proof.
  induction l; simpl; intros H; [lra|].
  assert (0 <= f a) by (apply H; now left). assert (0 <= Qsum (map f l)) by (apply IHl; intros; apply H; now right). lra.
Qed.

Lemma eval_evar s v : eval s (evar v) == s (v_id v).
Proof. unfold eval, evar, tval; simpl; lra. Qed.
Lemma eval_econst s q : eval s (econst q) == q.
Proof. unfold eval, econst; simpl; lra. Qed.
Lemma eval_eadd s a b : eval s (eadd a b) == eval s a + eval s b.
Proof. unfold eval, eadd; simpl. rewrite map_app, Qsum_app. lra. Qed.
Lemma eval_eneg s a : eval s (eneg a) == - eval s a.
Proof.
  unfold eval, eneg; simpl. rewrite map_map.
  assert (Qsum (map (fun x => tval s (fst x, - snd x)) (e_terms a)) == - Qsum (map (tval s) (e_terms a))) as ->.
  { induction (e_terms a); simpl; [lra|]. rewrite IHl. unfold tval; simpl. lra. }
  lra.
Qed.
Lemma eval_esub s a b : eval s (esub a b) == eval s a - eval s b.
Proof. unfold esub. rewrite eval_eadd, eval_eneg. lra. Qed.
Lemma eval_escale s a q : eval s (escale a q) == eval s a * q.
Proof.
  unfold escale. destruct (Qeq_bool q 0) eqn:E.
  - apply Qeq_bool_iff in E. rewrite eval_econst, E. lra.
  - unfold eval; simpl. rewrite map_map.
    assert (Qsum (map (fun x => tval s (fst x, snd x * q)) (e_terms a)) == Qsum (map (tval s) (e_terms a)) * q) as ->.
    { induction (e_terms a); simpl; [lra|]. rewrite IHl. unfold tval; simpl. lra. }
    lra.
Qed.
Lemma eval_fold s l : forall a, eval s (fold_left eadd l a) == eval s a + Qsum (map (eval s) l).
Proof. induction l; simpl; intros; [lra|]. rewrite IHl, eval_eadd. lra. Qed.
Lemma eval_esum s l : eval s (esum l) == Qsum (map (eval s) l).
Proof. unfold esum. rewrite eval_fold, eval_econst. lra. Qed.

(** value of a [pulp.LpVariable | float] *)
Lemma eval_fexpr s f : eval s (fexpr f) == fv s f.
Proof. destruct f; simpl; first [apply eval_evar | rewrite eval_econst; reflexivity]. Qed.

Lemma evars_evar v : evars (evar v) = [v].
Proof. reflexivity. Qed.
Lemma evars_econst q : evars (econst q) = [].
Proof. reflexivity. Qed.
Lemma evars_eadd a b : evars (eadd a b) = (evars a ++ evars b)%list.
Proof. unfold evars, eadd; simpl. apply map_app. Qed.
Lemma evars_eneg a : evars (eneg a) = evars a.
Proof. unfold evars, eneg; simpl. rewrite map_map. apply map_ext; reflexivity. Qed.
Lemma evars_esub a b : evars (esub a b) = (evars a ++ evars b)%list.
Proof. unfold esub. now rewrite evars_eadd, evars_eneg. Qed.
Lemma evars_escale a q : evars (escale a q) = if Qeq_bool q 0 then [] else evars a.
Proof. unfold escale. destruct (Qeq_bool q 0); [reflexivity|]. unfold evars; simpl. rewrite map_map. apply map_ext; reflexivity. Qed.
Lemma evars_esum l : evars (esum l) = flat_map evars l.
Proof.
  unfold esum. assert (forall a, evars (fold_left eadd l a) = (evars a ++ flat_map evars l)%list) as H.
  { induction l; simpl; intros. now rewrite app_nil_r. rewrite IHl, evars_eadd. now rewrite app_assoc. }
  rewrite H. reflexivity.
Qed.
Lemma evars_fexpr f : evars (fexpr f) = fvars f.
Proof. destruct f; reflexivity. Qed.

Definition vars_ok (s : assignment) (l : list lpvar) : Prop := Forall (var_ok s) l.

Lemma cle_ok s a b : constr_ok s (cle a b) <-> eval s a <= eval s b /\ vars_ok s (evars a ++ evars b).
Proof.
  unfold constr_ok, cle, sense_holds; simpl. rewrite eval_esub, evars_esub. unfold vars_ok.
  split; intros [H H']; (split; [lra|exact H']).
Qed.
Lemma cge_ok s a b : constr_ok s (cge a b) <-> eval s b <= eval s a /\ vars_ok s (evars a ++ evars b).
Proof.
  unfold constr_ok, cge, sense_holds; simpl. rewrite eval_esub, evars_esub. unfold vars_ok.
  split; intros [H H']; (split; [lra|exact H']).
Qed.
Lemma ceq_ok s a b : constr_ok s (ceq a b) <-> eval s a == eval s b /\ vars_ok s (evars a ++ evars b).
Proof.
  unfold constr_ok, ceq, sense_holds; simpl. rewrite eval_esub, evars_esub. unfold vars_ok.
  split; intros [H H']; (split; [lra|exact H']).
Qed.
Lemma vars_ok_app s a b : vars_ok s (a ++ b) <-> vars_ok s a /\ vars_ok s b.
Proof. apply Forall_app. Qed.
Lemma vars_ok_nil s : vars_ok s [] <-> True.
Proof. split; constructor. Qed.
Lemma vars_ok_cons s v l : vars_ok s (v :: l) <-> var_ok s v /\ vars_ok s l.
Proof. unfold vars_ok. split; [intros H; inversion H; auto|intros [? ?]; now constructor]. Qed.

Lemma var_ok_cont s v l u : v_low v = l -> v_up v = u -> v_int v = false ->
  (var_ok s v <-> match l with Some q => q <= s (v_id v) | None => True end
                  /\ match u with Some q => s (v_id v) <= q | None => True end).
Proof.
  intros <- <- Hi. unfold var_ok. rewrite Hi. split.
  - intros (H1 & H2 & _). split.
    + destruct (v_low v); auto.
    + destruct (v_up v); auto.
  - intros [H1 H2]. repeat split.
    + intros q E. rewrite E in H1. exact H1.
    + intros q E. rewrite E in H2. exact H2.
    + discriminate.
Qed.
Lemma var_ok_bin s v : v_low v = Some 0 -> v_up v = Some 1 -> v_int v = true ->
  (var_ok s v <-> s (v_id v) == 0 \/ s (v_id v) == 1).
Proof.
  intros Hl Hu Hi. unfold var_ok. rewrite Hl, Hu, Hi. split.
  - intros (H1 & H2 & H3). destruct (H3 eq_refl) as [z Hz].
    specialize (H1 0 eq_refl). specialize (H2 1 eq_refl). rewrite Hz in H1, H2.
    change 0 with (inject_Z 0) in H1. change 1 with (inject_Z 1) in H2.
    rewrite <- Zle_Qle in H1, H2. assert (z = 0 \/ z = 1)%Z as [->| ->] by lia.
    + left. rewrite Hz. reflexivity.
    + right. rewrite Hz. reflexivity.
  - intros H. repeat split.
    + intros q E; injection E as <-. destruct H as [H|H]; rewrite H; lra.
    + intros q E; injection E as <-. destruct H as [H|H]; rewrite H; lra.
    + intros _. destruct H as [H|H]; [exists 0%Z|exists 1%Z]; rewrite H; reflexivity.
Qed.

(** ** Inversion of monadic code *)
Lemma bind_ok {A B} (m : M A) (f : A -> M B) o b o' :
  bind m f o = Ok (b, o') <-> exists a o1, m o = Ok (a, o1) /\ f a o1 = Ok (b, o').
Proof.
  unfold bind. destruct (m o) as [[a o1]|e].
  - split; [eauto|intros (a' & o1' & E & F); injection E as <- <-; exact F].
  - split; [discriminate|intros (? & ? & ? & _); discriminate].
Qed.
Lemma ret_ok {A} (a : A) o b o' : ret a o = Ok (b, o') <-> a = b /\ o = o'.
Proof. unfold ret. split; [intros E; injection E; auto|intros [-> ->]; reflexivity]. Qed.
Lemma lift_ok {A} (r : res A) o b o' : lift r o = Ok (b, o') <-> r = Ok b /\ o = o'.
Proof.
  unfold lift. destruct r; split; try discriminate.
  - intros E; injection E as <- <-; auto.
  - intros [E <-]. now injection E as <-.
  - intros [? _]; discriminate.
Qed.
Lemma raise_ok {A} e o (b : A) o' : raise e o = Ok (b, o') <-> False.
Proof. unfold raise; split; [discriminate|tauto]. Qed.
Lemma massert_ok b o u o' : massert b o = Ok (u, o') <-> b = true /\ o = o'.
Proof.
  unfold massert. destruct b; [rewrite ret_ok|rewrite raise_ok]; split; try tauto; destruct u; intros; try tauto.
  destruct H; discriminate.
Qed.
Lemma rbind_ok {A B} (m : res A) (f : A -> res B) b :
  rbind m f = Ok b <-> exists a, m = Ok a /\ f a = Ok b.
Proof.
  unfold rbind. destruct m; split; try discriminate; eauto.
  - intros (x & E & F). now injection E as ->.
  - intros (x & E & F). discriminate.
Qed.
Lemma rassert_ok b u : rassert b = Ok u <-> b = true.
Proof. destruct b, u; simpl; split; auto; discriminate. Qed.
Lemma of_option_ok {A} e (o : option A) a : of_option e o = Ok a <-> o = Some a.
Proof. destruct o; simpl; split; intros E; try discriminate; injection E as <-; auto. Qed.

Lemma rmap_ok {A B} (f : A -> res B) l ys : rmap f l = Ok ys <-> Forall2 (fun x y => f x = Ok y) l ys.
Proof.
  revert ys. induction l; simpl; intros ys.
  - split; [intros E; injection E as <-; constructor|intros H; inversion H; reflexivity].
  - rewrite rbind_ok. split.
    + intros (y & E & F). rewrite rbind_ok in F. destruct F as (zs & E' & F). injection F as <-.
      constructor; [exact E|now apply IHl].
    + intros H; inversion H; subst. exists y. split; auto. rewrite rbind_ok. exists l'. split; [now apply IHl|reflexivity].
Qed.

Ltac minv H :=
  first
  [ rewrite bind_ok in H; let a := fresh "a" in let o1 := fresh "o" in let H1 := fresh "H" in
    destruct H as (a & o1 & H1 & H); minv H1; minv H
  | rewrite ret_ok in H; let E1 := fresh "E" in let E2 := fresh "E" in destruct H as [E1 E2]; subst
  | rewrite lift_ok in H; let E1 := fresh "E" in let E2 := fresh "E" in destruct H as [E1 E2]; subst
  | rewrite raise_ok in H; destruct H
  | rewrite massert_ok in H; let E1 := fresh "E" in let E2 := fresh "E" in destruct H as [E1 E2]; subst
  | idtac ].

(** ** Emission: code that only adds the constraints [cs] *)
Definition cons_of (o : opt) : list constr := map snd (o_cons o).
Definition extends (o o' : opt) (cs : list constr) : Prop :=
  o_next o' = o_next o /\ o_obj o' = o_obj o /\ cons_of o' = (cons_of o ++ cs)%list.
Definition emits {A} (m : M A) (cs : list constr) : Prop :=
  forall o a o', m o = Ok (a, o') -> extends o o' cs.

Lemma extends_refl o : extends o o [].
Proof. unfold extends. rewrite app_nil_r. auto. Qed.
Lemma extends_trans o1 o2 o3 c1 c2 : extends o1 o2 c1 -> extends o2 o3 c2 -> extends o1 o3 (c1 ++ c2).
Proof. unfold extends. intros (A & B & C) (A' & B' & C'). rewrite A', B', C', A, B, C, app_assoc. auto. Qed.

Lemma emits_ret {A} (a : A) : emits (ret a) [].
Proof. intros o b o' H. minv H. apply extends_refl. Qed.
Lemma emits_raise {A} e cs : @emits A (raise e) cs.
Proof. intros o b o' H. minv H. Qed.
Lemma emits_massert b : emits (massert b) [].
Proof. intros o u o' H. minv H. apply extends_refl. Qed.
Lemma emits_constrain_named c n : emits (constrain_named c n) [c].
Proof.
  intros o u o' H. unfold constrain_named in H. destruct n as [n|].
  - destruct (existsb _ _); [discriminate|]. injection H as <- <-. unfold extends, cons_of; simpl. rewrite map_app. auto.
  - injection H as <- <-. unfold extends, cons_of; simpl. rewrite map_app. auto.
Qed.
Lemma emits_constrain c : emits (constrain c) [c].
Proof. apply emits_constrain_named. Qed.
Lemma emits_bind {A B} (m : M A) (f : A -> M B) c1 c2 :
  emits m c1 -> (forall a, emits (f a) c2) -> emits (bind m f) (c1 ++ c2).
Proof. intros H1 H2 o b o' H. minv H. eapply extends_trans; [eapply H1|eapply H2]; eauto. Qed.
Lemma emits_lift {A B} (r : res A) (f : A -> M B) cs :
  (forall a, r = Ok a -> emits (f a) cs) -> emits (bind (lift r) f) cs.
Proof. intros H o b o' E. minv E. eapply H; eauto. Qed.
Lemma emits_forM_ {A} (l : list A) (f : A -> M unit) g :
  (forall x, In x l -> emits (f x) (g x)) -> emits (forM_ l f) (flat_map g l).
Proof.
  induction l; simpl; intros H; [apply emits_ret|].
  apply emits_bind; [apply H; now left|]. intros _. apply IHl. intros; apply H; now right.
Qed.
Lemma emits_eq {A} (m : M A) c1 c2 : emits m c1 -> c1 = c2 -> emits m c2.
Proof. now intros H <-. Qed.

(** ** Lists *)
Lemma py_index_last {A} (l : list A) x : py_index (l ++ [x]) (-1) = Ok x.
Proof.
  unfold py_index. rewrite app_length; simpl.
  replace (0 <=? -1)%Z with false by reflexivity. simpl.
  replace (- Z.of_nat (List.length l + 1) <=? -1)%Z with true by (symmetry; apply Z.leb_le; lia). simpl.
  replace (Z.to_nat (Z.of_nat (List.length l + 1) + -1)) with (List.length l) by lia.
  rewrite nth_error_app2 by lia. now rewrite Nat.sub_diag.
Qed.
Lemma py_index_nat {A} (l : list A) i : py_index l (Z.of_nat i) = of_option IndexErr (nth_error l i).
Proof.
  unfold py_index. destruct (Nat.ltb_spec i (List.length l)) as [H|H].
  - replace (0 <=? Z.of_nat i)%Z with true by (symmetry; apply Z.leb_le; lia).
    replace (Z.of_nat i <? Z.of_nat (List.length l))%Z with true by (symmetry; apply Z.ltb_lt; lia).
    simpl. now rewrite Nat2Z.id.
  - replace (Z.of_nat i <? Z.of_nat (List.length l))%Z with false by (symmetry; apply Z.ltb_ge; lia).
    replace (Z.of_nat i <? 0)%Z with false by (symmetry; apply Z.ltb_ge; lia).
    rewrite andb_false_r; simpl.
    rewrite (proj2 (nth_error_None l i)) by lia. reflexivity.
Qed.
Lemma py_index_0 {A} (l : list A) x : py_index l 0 = Ok x <-> exists r, l = x :: r.
Proof.
  change 0%Z with (Z.of_nat 0). rewrite py_index_nat. destruct l; simpl; split; try discriminate.
  - intros (r & E); discriminate.
  - intros E; injection E as ->; eauto.
  - intros (r & E). now injection E as -> _.
Qed.
Lemma hd_res_ok {A} (l : list A) x : hd_res l = Ok x <-> exists r, l = x :: r.
Proof. apply py_index_0. Qed.

Lemma nodup_str_iff l : nodup_str l = true <-> NoDup l.
Proof.
  induction l; simpl; [split; auto; constructor|].
  rewrite andb_true_iff, negb_true_iff, IHl. split.
  - intros [H1 H2]. constructor; auto. intros I.
    assert (existsb (String.eqb a) l = true) by (apply existsb_exists; exists a; split; auto; apply String.eqb_refl).
    congruence.
  - intros H; inversion H; subst. split; auto.
    apply not_true_iff_false. intros E. apply existsb_exists in E. destruct E as (x & I & E).
    apply String.eqb_eq in E; subst. contradiction.
Qed.

Lemma enum_from_seq {A} (l : list A) : forall n, map fst (enum_from n l) = seq n (List.length l).
Proof. induction l; simpl; intros; [reflexivity|now rewrite IHl]. Qed.
Lemma enum_from_in {A} (l : list A) : forall n k x, In (k, x) (enum_from n l) <-> (n <= k /\ nth_error l (k - n) = Some x)%nat.
Proof.
  induction l; simpl; intros n k x.
  - split; [tauto|]. intros [_ H]. destruct (k - n)%nat; discriminate.
  - rewrite IHl. split.
    + intros [E|[H1 H2]].
      * injection E as -> ->. rewrite Nat.sub_diag. auto.
      * split; [lia|]. replace (k - n)%nat with (S (k - S n)) by lia. exact H2.
    + intros [H1 H2]. destruct (Nat.eq_dec k n) as [->|Hn].
      * left. rewrite Nat.sub_diag in H2. now injection H2 as ->.
      * right. split; [lia|]. replace (k - n)%nat with (S (k - S n)) in H2 by lia. exact H2.
Qed.
Lemma enumerate_in {A} (l : list A) k x : In (k, x) (enumerate l) <-> nth_error l k = Some x.
Proof. unfold enumerate. rewrite enum_from_in, Nat.sub_0_r. split; [tauto|]. split; [lia|auto]. Qed.
Lemma enum_from_length {A} (l : list A) : forall n, List.length (enum_from n l) = List.length l.
Proof. induction l; simpl; auto. Qed.

Lemma filter_concat {A} (p : A -> bool) ls : filter p (List.concat ls) = List.concat (map (filter p) ls).
Proof. induction ls; simpl; [reflexivity|]. now rewrite filter_app, IHls. Qed.
Lemma filter_none {A} (p : A -> bool) l : (forall x, In x l -> p x = false) -> filter p l = [].
Proof. induction l; simpl; intros H; [reflexivity|]. rewrite H by now left. apply IHl. intros; apply H; now right. Qed.
Lemma filter_all {A} (p : A -> bool) l : (forall x, In x l -> p x = true) -> filter p l = l.
Proof. induction l; simpl; intros H; [reflexivity|]. rewrite H by now left. f_equal. apply IHl. intros; apply H; now right. Qed.

(** ** Satisfaction of a list of constraints *)
Definition all_ok (s : assignment) (cs : list constr) : Prop := Forall (constr_ok s) cs.
Lemma all_ok_app s a b : all_ok s (a ++ b) <-> all_ok s a /\ all_ok s b.
Proof. apply Forall_app. Qed.
Lemma all_ok_nil s : all_ok s [] <-> True.
Proof. split; constructor. Qed.
Lemma all_ok_cons s c cs : all_ok s (c :: cs) <-> constr_ok s c /\ all_ok s cs.
Proof. unfold all_ok. split; [intros H; inversion H; auto|intros [? ?]; now constructor]. Qed.
Lemma all_ok_flat_map {A} s (f : A -> list constr) l : all_ok s (flat_map f l) <-> forall x, In x l -> all_ok s (f x).
Proof.
  induction l; simpl.
  - split; [intros _ x []|constructor].
  - rewrite all_ok_app, IHl. split.
    + intros [H1 H2] x [<-|I]; auto.
    + intros H; split; intros; apply H; auto.
Qed.
Lemma feasible_iff s o : feasible s o <-> all_ok s (cons_of o) /\ match o_obj o with Some e => vars_ok s (evars e) | None => True end.
Proof.
  unfold feasible, all_ok, cons_of, vars_ok. rewrite Forall_map. reflexivity.
Qed.

(** variables occurring in a list of constraints *)
Definition cs_vars (cs : list constr) : list lpvar := flat_map (fun c => evars (c_expr c)) cs.
Lemma cs_vars_app a b : cs_vars (a ++ b) = (cs_vars a ++ cs_vars b)%list.
Proof. apply flat_map_app. Qed.
Lemma occurs_cons o v : In v (cs_vars (cons_of o)) -> occurs o v = true.
Proof.
  intros H. unfold occurs. apply existsb_exists. exists v. split; [|apply Nat.eqb_refl].
  unfold all_occurrences. apply in_or_app. right. unfold cs_vars, cons_of in H.
  apply in_flat_map in H. destruct H as (c & I & J). apply in_map_iff in I. destruct I as (nc & <- & I).
  apply in_flat_map. eauto.
Qed.
Lemma occurs_obj o e v : o_obj o = Some e -> In v (evars e) -> occurs o v = true.
Proof.
  intros E H. unfold occurs. apply existsb_exists. exists v. split; [|apply Nat.eqb_refl].
  unfold all_occurrences. rewrite E. apply in_or_app. now left.
Qed.
