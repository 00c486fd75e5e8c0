(** * PropConstraintArgs: constraints and objectives as dictionaries, for the whole of optimize (C55) *)
From Verif Require Import Base Pulp Params Optimizer Types Assets EVs Site Constraints Objectives Extract Pipeline Emit Prim Terms SpecDicts PropDicts ConstraintArgs SpecConstraintArgs.
From Verif Require Import Check Lucky Spec SpecReport SpecRun SampleSite.
Open Scope Q_scope.
Open Scope string_scope.

Lemma f2_imp {A B} (R S : A -> B -> Prop) l m : (forall x y, R x y -> S x y) -> Forall2 R l m -> Forall2 S l m.
Proof. intros H. induction 1; constructor; auto. Qed.
Lemma cv_opt_iff d k o : cv_opt d k = Ok o <-> match o with Some s => assoc k d = Some (CvStr s) | None => assoc k d = Some CvNone \/ assoc k d = None end.
Proof.
  unfold cv_opt. destruct (assoc k d) as [[| | | | |]|]; destruct o; split; intros H; try discriminate; try (destruct H; discriminate); try congruence; auto.
Qed.
Lemma cterm_of_iff d t : cterm_of d = Ok t <-> term_reads d t.
Proof.
  unfold cterm_of, term_reads. split.
  - intros H. unb H. injection H as <-. cbn. apply cv_opt_iff in E0, E1, E2. splits; auto.
    + unfold cv_text in E. destruct (assoc "variable" d) as [[| | | | |]|]; congruence.
    + unfold cv_num in E3. destruct (assoc "coefficient" d) as [[| | | | |]|]; try discriminate; [left; congruence|right; split; congruence].
  - destruct t as [v ty i n c]. cbn. intros (H1 & H2 & H3 & H4 & H5). apply cv_opt_iff in H2, H3, H4. unfold cv_text. rewrite H1. cbn [rbind]. rewrite H2. cbn [rbind]. rewrite H3. cbn [rbind]. rewrite H4. cbn [rbind].
    unfold cv_num. destruct H5 as [->|[-> ->]]; reflexivity.
Qed.
Lemma entry_of_iff v e : entry_of v = Ok e <-> entry_reads v e.
Proof.
  unfold entry_reads. split.
  - intros H. destruct v; cbn [entry_of] in H; try discriminate.
    + injection H as <-. reflexivity.
    + injection H as <-. auto.
    + unb H. injection H as <-. right. exists d. split; auto. now apply cterm_of_iff.
  - destruct e as [q|t]; [intros ->; reflexivity|]. intros [->|(d & -> & R)]; [reflexivity|]. cbn. apply cterm_of_iff in R. now rewrite R.
Qed.
Lemma side_of_iff v l : side_of (Some v) = Ok l <-> side_reads v l.
Proof.
  unfold side_reads. split.
  - intros H. destruct v; cbn [side_of] in H;
      try (unb H; injection H as <-; right; eexists; split; [reflexivity|]; now apply entry_of_iff).
    left. exists l0. split; auto. apply rmap_ok in H. eapply f2_imp; [|exact H]. intros. now apply entry_of_iff.
  - intros [(vs & -> & F)|(e & -> & R)].
    + cbn. apply rmap_ok. eapply f2_imp; [|exact F]. intros. now apply entry_of_iff.
    + apply entry_of_iff in R. destruct v; cbn [side_of]; try (rewrite R; reflexivity). discriminate.
Qed.
Lemma sense_of_iff v s : sense_of v = Ok s <-> v = Some (CvStr (sense_word s)).
Proof.
  unfold sense_of. split.
  - destruct v as [[|w| | | |]|]; try discriminate. destruct (w =? "le") eqn:E1; [apply String.eqb_eq in E1; intros H; injection H as <-; now subst|].
    destruct (w =? "eq") eqn:E2; [apply String.eqb_eq in E2; intros H; injection H as <-; now subst|].
    destruct (w =? "ge") eqn:E3; [apply String.eqb_eq in E3; intros H; injection H as <-; now subst|discriminate].
  - intros ->. destruct s; reflexivity.
Qed.
Lemma aggregation_of_iff v b : aggregation_of v = Ok b <-> (if b then v = Some (CvStr "sum") else v = None \/ v = Some CvNone).
Proof.
  unfold aggregation_of. split.
  - destruct v as [[|w| | | |]|]; try discriminate; try (intros H; injection H as <-; auto).
    destruct (w =? "sum") eqn:E; [|discriminate]. apply String.eqb_eq in E. subst. intros H. injection H as <-. reflexivity.
  - destruct b; [intros ->; reflexivity|intros [->| ->]; reflexivity].
Qed.
Lemma all_floats_iff l r : (all_floats l && all_floats r)%bool = false <-> Exists is_term (l ++ r)%list.
Proof.
  unfold all_floats. rewrite <- forallb_app. rewrite Exists_exists. split.
  - intros H. induction (l ++ r)%list as [|[q|t] m IH]; [discriminate| |exists (CTermOf t); split; [now left|now exists t]].
    cbn in H. destruct (IH H) as (x & I & J). exists x. split; auto. now right.
  - intros (x & I & t & ->). apply not_true_iff_false. intros H. rewrite forallb_forall in H. discriminate (H _ I).
Qed.
(** A dictionary is read as the constraint it says, and as no other. *)
Theorem C55_reads : forall d k, read_constraint (ConDict d) = Ok k <-> constraint_reads d k.
Proof.
  intros d k. cbn [read_constraint]. unfold constraint_of, constraint_reads. split.
  - intros H. unb H. destruct (assoc "lhs" d) as [lv|] eqn:L1; [|discriminate]. destruct (assoc "rhs" d) as [rv|] eqn:L2; [|discriminate].
    unfold make_constraint in H. destruct (all_floats x && all_floats x0)%bool eqn:AF; [discriminate|]. injection H as <-. cbn.
    apply side_of_iff in E, E0. apply sense_of_iff in E1. apply aggregation_of_iff in E2. apply all_floats_iff in AF. splits; eauto.
  - destruct k as [l r s b]. cbn. intros ((lv & -> & H1) & (rv & -> & H2) & H3 & H4 & H5). apply side_of_iff in H1, H2. apply sense_of_iff in H3. apply aggregation_of_iff in H4. apply all_floats_iff in H5.
    rewrite H1. cbn [rbind]. rewrite H2. cbn [rbind]. rewrite H3. cbn [rbind]. rewrite H4. cbn [rbind]. unfold make_constraint. now rewrite H5.
Qed.

(** What says nothing is refused with a ValidationError. *)
Lemma cterm_of_err d e : no_text (assoc "coefficient" d) -> cterm_of d = Err e -> e = ValidationErr.
Proof.
  unfold cterm_of, cv_text, cv_opt, cv_num. intros P.
  destruct (assoc "variable" d) as [[| | | | |]|]; cbn [rbind]; try congruence;
  destruct (assoc "asset_type" d) as [[| | | | |]|]; cbn [rbind]; try congruence;
  destruct (assoc "interval_data" d) as [[| | | | |]|]; cbn [rbind]; try congruence;
  destruct (assoc "asset_name" d) as [[| | | | |]|]; cbn [rbind]; try congruence;
  destruct (assoc "coefficient" d) as [[| | | | |]|]; cbn [rbind]; try congruence; destruct P.
Qed.
Lemma entry_of_err v e : plain_entry v -> entry_of v = Err e -> e = ValidationErr.
Proof.
  destruct v; cbn [plain_entry entry_of]; try congruence; [intros []|]. intros P H. destruct (cterm_of d) eqn:E; [discriminate|]. cbn in H. injection H as <-. eapply cterm_of_err; eauto.
Qed.
Lemma side_of_err v e : plain_side v -> side_of v = Err e -> e = ValidationErr.
Proof.
  destruct v as [v|]; cbn [plain_side]; [|cbn; congruence]. destruct v as [| | | | |l]; cbn [side_of];
    try (intros P H; match type of H with rbind (entry_of ?w) _ = _ => destruct (entry_of w) eqn:E; [discriminate|]; cbn in H; injection H as <-; eapply entry_of_err; [exact P|exact E] end).
  intros P. revert e. induction l as [|v l IH]; intros e H; cbn [rmap] in H; [discriminate|]. inversion P; subst.
  destruct (entry_of v) eqn:E; cbn [rbind] in H; [|injection H as <-; eapply entry_of_err; eauto].
  destruct (rmap entry_of l) eqn:E2; cbn [rbind] in H; [discriminate|]. injection H as <-. auto.
Qed.
Lemma constraint_of_err d e : plain_con (ConDict d) -> constraint_of d = Err e -> e = ValidationErr.
Proof.
  intros [PL PR] H. unfold constraint_of in H.
  destruct (side_of (assoc "lhs" d)) as [l|] eqn:E1; cbn [rbind] in H; [|injection H as <-; exact (side_of_err _ _ PL E1)].
  destruct (side_of (assoc "rhs" d)) as [r|] eqn:E2; cbn [rbind] in H; [|injection H as <-; exact (side_of_err _ _ PR E2)].
  destruct (sense_of (assoc "sense" d)) as [s|] eqn:E3; cbn [rbind] in H.
  2:{ injection H as <-. unfold sense_of in E3. destruct (assoc "sense" d) as [[|w| | | |]|]; try congruence.
      destruct (w =? "le"); [discriminate|]. destruct (w =? "eq"); [discriminate|]. destruct (w =? "ge"); congruence. }
  destruct (aggregation_of (assoc "interval_aggregation" d)) as [b|] eqn:E4; cbn [rbind] in H.
  2:{ injection H as <-. unfold aggregation_of in E4. destruct (assoc "interval_aggregation" d) as [[|w| | | |]|]; try congruence. destruct (w =? "sum"); congruence. }
  destruct (make_constraint l r s b); congruence.
Qed.
Theorem C55_refuses : forall x, plain_con x -> (forall k, ~ con_is x k) -> read_constraint x = Err ValidationErr.
Proof.
  intros [d|k] P N; [|exfalso; apply (N k); reflexivity]. cbn [con_is] in N. destruct (read_constraint (ConDict d)) as [k|e] eqn:E.
  - apply C55_reads in E. now apply N in E.
  - cbn in E. f_equal. eapply constraint_of_err; eauto.
Qed.
(** Keys that Constraint does not know are ignored. *)
Theorem C55_other_keys : forall d m v, ~ In m ["lhs"; "rhs"; "sense"; "interval_aggregation"] -> read_constraint (ConDict ((m, v) :: d)) = read_constraint (ConDict d).
Proof.
  intros d m v N. cbn [read_constraint]. unfold constraint_of. cbn [assoc].
  assert (forall k, In k ["lhs"; "rhs"; "sense"; "interval_aggregation"] -> (k =? m) = false) as H by (intros k I; apply String.eqb_neq; intros ->; auto).
  rewrite !H by (cbn; tauto). reflexivity.
Qed.
(** An object and its dictionary are the same argument. *)
Theorem C55_round_trip : forall k, Exists is_term (cn_lhs k ++ cn_rhs k)%list -> read_constraint (ConDict (as_constraint_dict k)) = Ok k.
Proof.
  intros k H. apply C55_reads. unfold constraint_reads, as_constraint_dict. cbn.
  assert (forall l, Forall2 entry_reads (map entry_value l) l) as R.
  { induction l as [|e l IH]; cbn; constructor; auto. destruct e as [q|[v ty i n c]]; cbn; auto. right. eexists. split; [reflexivity|]. unfold term_reads. cbn.
    destruct ty, i, n; cbn; splits; auto. }
  splits; auto.
  - eexists. split; [reflexivity|]. left. eexists. split; [reflexivity|]. apply R.
  - eexists. split; [reflexivity|]. left. eexists. split; [reflexivity|]. apply R.
  - destruct (cn_sum k); auto.
Qed.

(** ** Whole runs *)
Lemma read_is x k : read_constraint x = Ok k <-> con_is x k.
Proof. destruct x as [d|j]; [apply C55_reads|]. cbn. split; congruence. Qed.
Lemma cons_same cargs ks iv d : Forall2 con_is cargs ks -> forall o, forM_ cargs (fun x => add_constraint_arg x iv d) o = forM_ ks (fun k => add_custom_constraint k iv d) o.
Proof.
  induction 1 as [|x k l m H F IH]; intros o; [reflexivity|]. cbn [forM_]. unfold bind. unfold add_constraint_arg at 1. apply read_is in H. rewrite H. unfold bind. cbn [lift].
  destruct (add_custom_constraint k iv d o) as [[u o1]|e]; auto.
Qed.
Lemma obj_same oarg obj iv d o : obj_is oarg obj -> get_objective_arg oarg iv d o = get_objective obj iv d o.
Proof.
  destruct oarg as [s|[args|]|ts], obj as [s'|ts']; cbn [obj_is]; try contradiction.
  - intros ->. reflexivity.
  - intros F. rewrite (C45_dict_is_function args ts'); [reflexivity|]. eapply f2_imp; [|exact F]. intros x t H. exact H.
  - intros ->. reflexivity.
Qed.
Definition given (cons : option (list constraint_arg)) : list constraint_arg := match cons with Some l => l | None => [] end.
(** optimize does with dictionaries what it does with the objects they describe: the same result or the same error. *)
Theorem C55_same_run : forall slv base c assets cargs oarg fl ks obj,
  Forall2 con_is (given cargs) ks -> obj_is oarg obj ->
  optimize_args slv base c assets cargs oarg fl = optimize slv base c assets ks obj fl.
Proof.
  intros slv base c assets cargs oarg fl ks obj F O. unfold optimize_args, optimize.
  enough (build_program_args c assets cargs oarg fl (new_optimizer base) = build_program c assets ks obj fl (new_optimizer base)) as -> by reflexivity.
  unfold build_program_args, build_program, bind. destruct (build_base c assets fl (new_optimizer base)) as [[iv o]|e]; auto.
  assert ((match cargs with None => ret tt | Some l => forM_ l (fun x => add_constraint_arg x iv (sc_idata c)) end) o = forM_ ks (fun k => add_custom_constraint k iv (sc_idata c)) o) as ->.
  { destruct cargs as [l|]; cbn [given] in F; [now apply cons_same|]. inversion F; subst. reflexivity. }
  destruct (forM_ ks _ o) as [[u o1]|e]; auto. rewrite (obj_same _ _ _ _ _ O). reflexivity.
Qed.
Lemma cons_read cargs iv d : forall o u o', forM_ cargs (fun x => add_constraint_arg x iv d) o = Ok (u, o') -> exists ks, Forall2 con_is cargs ks.
Proof.
  induction cargs as [|x l IH]; intros o u o' H; [exists []; constructor|]. cbn [forM_] in H. unfold bind in H.
  destruct (add_constraint_arg x iv d o) as [[u1 o1]|] eqn:E; [|discriminate]. unfold add_constraint_arg, bind in E. cbn [lift] in E.
  destruct (read_constraint x) as [k|] eqn:R; [|discriminate]. destruct (IH _ _ _ H) as (ks & F). exists (k :: ks). constructor; auto. now apply read_is.
Qed.
Lemma obj_read oarg iv d o e o' : get_objective_arg oarg iv d o = Ok (e, o') -> exists obj, obj_is oarg obj.
Proof.
  destruct oarg as [s|[args|]|ts].
  - intros _. now exists (ObjName s).
  - unfold get_objective_arg, bind. cbn [resolve_objective]. destruct (rmap term_factory args) as [rs|] eqn:R; [|discriminate]. intros _. exists (ObjTerms (map fst rs)). cbn [obj_is].
    clear -R. revert rs R. induction args as [|x l IH]; intros rs R; cbn [rmap] in R; [injection R as <-; constructor|].
    unb R. injection R as <-. cbn [map]. constructor; auto. destruct x0 as [t x']. cbn [fst]. apply arg_is_iff. eauto.
  - discriminate.
  - intros _. now exists (ObjTerms ts).
Qed.
(** A result is the result for constraints and an objective that the arguments describe. *)
Theorem C55_result_is_described : forall slv base c assets cargs oarg fl r, optimize_args slv base c assets cargs oarg fl = Ok r ->
  exists ks obj, Forall2 con_is (given cargs) ks /\ obj_is oarg obj /\ optimize slv base c assets ks obj fl = Ok r.
Proof.
  intros slv base c assets cargs oarg fl r H. assert ((exists ks, Forall2 con_is (given cargs) ks) /\ exists obj, obj_is oarg obj) as [(ks & F) (obj & O)].
  { unfold optimize_args in H. destruct (build_program_args _ _ _ _ _ _) as [[iv o]|] eqn:E; [|discriminate]. unfold build_program_args, bind in E.
    destruct (build_base c assets fl (new_optimizer base)) as [[iv1 o1]|]; [|discriminate].
    destruct ((match cargs with None => ret tt | Some l => forM_ l (fun x => add_constraint_arg x iv1 (sc_idata c)) end) o1) as [[u o2]|] eqn:EC; [|discriminate].
    destruct (get_objective_arg oarg iv1 (sc_idata c) o2) as [[e o3]|] eqn:EO; [|discriminate]. split; [|eapply obj_read; eauto].
    destruct cargs as [l|]; [eapply cons_read; eauto|exists []; constructor]. }
  exists ks, obj. splits; auto. rewrite <- H. symmetry. now apply C55_same_run.
Qed.
(** One argument that says nothing - a missing sense, an unknown word, no variable on either side - and there is no result. *)
Theorem C55_never : forall slv base c assets cargs oarg fl r x, In x (given cargs) -> (forall k, ~ con_is x k) -> optimize_args slv base c assets cargs oarg fl <> Ok r.
Proof.
  intros slv base c assets cargs oarg fl r x I N H. apply C55_result_is_described in H. destruct H as (ks & obj & F & _). 
  clear -F I N. induction F as [|y k l m Hy F IH]; [destruct I|]. destruct I as [->|I]; [exact (N k Hy)|auto].
Qed.
Theorem C55_numbers_only : forall d k, constraint_reads d k -> exists v, (assoc "lhs" d = Some v \/ assoc "rhs" d = Some v) /\
  ((exists t, v = CvTerm t) \/ (exists e, v = CvDict e) \/ (exists l x, v = CvList l /\ In x l /\ ((exists t, x = CvTerm t) \/ exists e, x = CvDict e))).
Proof.
  assert (forall v l, side_reads v l -> Exists is_term l -> (exists t, v = CvTerm t) \/ (exists e, v = CvDict e) \/ (exists l x, v = CvList l /\ In x l /\ ((exists t, x = CvTerm t) \/ exists e, x = CvDict e))) as H.
  { intros v l S X. assert (forall x e, entry_reads x e -> is_term e -> (exists t, x = CvTerm t) \/ exists e, x = CvDict e) as E.
    { intros x e R (t & ->). cbn in R. destruct R as [->|(d & -> & _)]; eauto. }
    destruct S as [(vs & -> & F)|(e & -> & R)].
    - right. right. exists vs. revert X. induction F as [|x e vs l Hx F IH]; intros X; [inversion X|]. inversion X as [? ? T|? ? T]; subst.
      + exists x. splits; auto; [now left|eauto].
      + destruct (IH T) as (y & _ & I & J). exists y. splits; auto. now right.
    - inversion X as [? ? T|? ? T]; subst; [|inversion T]. destruct (E _ _ R T) as [(t & ->)|(d & ->)]; eauto. }
  intros d k ((lv & E1 & S1) & (rv & E2 & S2) & _ & _ & X). apply Exists_app in X. destruct X as [X|X]; [exists lv|exists rv]; split; eauto.
Qed.

(** ** Cases *)
(** the dictionary of tests/test_custom_constraints.py:299-310 *)
Definition cycles : cdict :=
  [("rhs", CvList [CvDict [("asset_type", CvStr "battery"); ("variable", CvStr "electric_charge_mwh")];
                   CvDict [("asset_type", CvStr "battery"); ("variable", CvStr "electric_discharge_mwh")]]);
   ("lhs", CvNum 15); ("sense", CvStr "ge"); ("interval_aggregation", CvStr "sum")].
Definition cycles_constraint : constraint :=
  mkConstraint [CNumber 15] [CTermOf (mkCterm "electric_charge_mwh" (Some "battery") None None 1); CTermOf (mkCterm "electric_discharge_mwh" (Some "battery") None None 1)] GE true.
Definition price_dict : objective_arg :=
  ODict (Some [ArgDict [("asset_type", VStr "site"); ("variable", VStr "import_power_mwh"); ("interval_data", VStr "electricity_prices")]]).
Example C55_sample : constraint_reads cycles cycles_constraint /\
  obj_is price_dict (ObjTerms [TSimple (mkTerm "import_power_mwh" (Some "site") (Some "electricity_prices") None 1 "simple")]) /\
  match optimize_args x_solver 0 x_site x_assets (Some [ConDict cycles]) price_dict default_flags with Ok r => r_feasible r = true | Err _ => False end.
Proof.
  splits.
  - apply C55_reads. reflexivity.
  - cbn [obj_is price_dict]. constructor; [|constructor]. apply C45_factory_reads. eexists. reflexivity.
  - vm_compute. reflexivity.
Qed.
(** a misspelt interval_aggregation is ignored: the constraint then holds in every interval instead of in total *)
Theorem C55_misspelt_refuted : exists d, In ("interval_agregation", CvStr "sum") d /\
  read_constraint (ConDict d) = Ok (mkConstraint (cn_lhs cycles_constraint) (cn_rhs cycles_constraint) GE false).
Proof.
  exists (removelast cycles ++ [("interval_agregation", CvStr "sum")])%list. split; [cbn; tauto|reflexivity].
Qed.
(** tests/test_custom_constraints.py:485-500: a constraint without a sense is accepted by the constructors and refused by optimize *)
Example C55_no_sense : forall slv fl oarg r,
  optimize_args slv 0 x_site x_assets (Some [ConDict [("lhs", CvNum 10); ("rhs", CvDict [("asset_type", CvStr "site"); ("variable", CvStr "import_power_mwh")])]]) oarg fl <> Ok r.
Proof.
  intros slv fl oarg r. eapply C55_never; [cbn [given]; left; reflexivity|]. intros k K. apply C55_reads in K. discriminate.
Qed.
