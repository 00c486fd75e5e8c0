(** * Check: a decision procedure for feasibility, used for the concrete examples *)
From Verif Require Import Base Pulp Optimizer.
Open Scope Q_scope.

Definition is_intb (q : Q) : bool := Qeq_bool q (inject_Z (Qnum q / Zpos (Qden q))).
Lemma is_intb_iff q : is_intb q = true <-> exists z, q == inject_Z z.
Proof.
  unfold is_intb. rewrite Qeq_bool_iff. split; [eauto|].
  intros [z E]. unfold Qeq, inject_Z in *. cbn [Qnum Qden] in *. rewrite Z.mul_1_r in *.
  rewrite E. rewrite Z.div_mul by lia. reflexivity.
Qed.
Definition optb (o : option Q) (f : Q -> bool) : bool := match o with Some q => f q | None => true end.
Definition var_okb (s : assignment) (v : lpvar) : bool :=
  optb (v_low v) (fun l => Qle_bool l (s (v_id v))) && optb (v_up v) (fun u => Qle_bool (s (v_id v)) u)
  && (negb (v_int v) || is_intb (s (v_id v))).
Lemma var_okb_iff s v : var_okb s v = true <-> var_ok s v.
Proof.
  unfold var_okb, var_ok. rewrite !andb_true_iff, orb_true_iff, negb_true_iff, is_intb_iff.
  assert (forall o f, optb o f = true <-> forall q, o = Some q -> f q = true) as O.
  { intros [q|] f; simpl; split; intros H; try discriminate; auto. intros q' E; injection E as <-; auto. }
  rewrite !O. split.
  - intros [[A B] C]. repeat split; try (intros; apply Qle_bool_iff; auto). intros E. destruct C; [congruence|auto].
  - intros (A & B & C). repeat split; intros; try (apply Qle_bool_iff; auto). destruct (v_int v); auto.
Qed.
Definition senseb (k : sense) (x : Q) : bool :=
  match k with LE => Qle_bool x 0 | EQ => Qeq_bool x 0 | GE => Qle_bool 0 x end.
Lemma senseb_iff k x : senseb k x = true <-> sense_holds k x.
Proof. destruct k; simpl; first [apply Qle_bool_iff|apply Qeq_bool_iff]. Qed.
Definition constr_okb (s : assignment) (c : constr) : bool :=
  senseb (c_sense c) (eval s (c_expr c)) && forallb (var_okb s) (evars (c_expr c)).
Lemma forallb_Forall {A} (f : A -> bool) (P : A -> Prop) l : (forall x, f x = true <-> P x) -> (forallb f l = true <-> Forall P l).
Proof. intros H. rewrite forallb_forall, Forall_forall. split; intros K x I; apply H; auto. Qed.
Lemma constr_okb_iff s c : constr_okb s c = true <-> constr_ok s c.
Proof.
  unfold constr_okb, constr_ok. rewrite andb_true_iff, senseb_iff, (forallb_Forall _ _ _ (var_okb_iff s)). reflexivity.
Qed.
Definition feasibleb (s : assignment) (o : opt) : bool :=
  forallb (fun nc => constr_okb s (snd nc)) (o_cons o)
  && match o_obj o with Some e => forallb (var_okb s) (evars e) | None => true end.
Lemma feasibleb_iff s o : feasibleb s o = true <-> feasible s o.
Proof.
  unfold feasibleb, feasible. rewrite andb_true_iff.
  rewrite (forallb_Forall _ _ _ (fun nc => constr_okb_iff s (snd nc))).
  destruct (o_obj o); [rewrite (forallb_Forall _ _ _ (var_okb_iff s))|]; intuition.
Qed.

(** assignment from a list of values of the identities 0, 1, 2, ... *)
Definition of_list (l : list Q) : assignment := fun i => nth i l 0.
