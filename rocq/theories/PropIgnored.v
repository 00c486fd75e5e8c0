(** * PropIgnored: what an objective ignores, and the same function term twice (C77) *)
From Coq Require Import Permutation Qminmax Qabs.
From Verif Require Import Base Pulp Params Optimizer Types Assets EVs Site Constraints Objectives Extract Pipeline Emit Prim Spec SpecReport SpecRun SpecCost SpecTerms SpecFunctions Layout Rows Sem SemSite SemProg SemObj SemResults RunFacts Complete PropSite PropObjective PropTerms SemFun SemFunTerms PropFunctions OptFacts PropColumns Check SampleSite Certified Lucky Totals.
Open Scope Q_scope.
Open Scope string_scope.

(** ** Specification *)
(** a term with a type, or a function, that the library does not know (both are plain strings, nothing checks them) *)
Definition known_functions : list string := ["max_two_variables"; "min_two_variables"; "max_many_variables"; "min_many_variables"].
Definition silent (t : one_term) : Prop :=
  match t with
  | TSimple k => t_type k <> "simple" /\ t_type k <> "complex"
  | TTwo w => w_type w <> "simple" /\ (w_type w <> "complex" \/ ~ In (w_function w) known_functions)
  | TMany m => m_type m <> "simple" /\ (m_type m <> "complex" \/ ~ In (m_function m) known_functions)
  end.
(** Two terms that differ only in parts that have no meaning: in an operand of a two-variable term everything but the variable; in the variables of a
    many-variable term the coefficient, the type when a name is given, and the name when the type is "*". *)
Definition same_operand (x y : term_or_number) : Prop :=
  match x, y with TNumber p, TNumber q => p = q | TTerm k, TTerm k' => t_variable k = t_variable k' | _, _ => False end.
Definition same_choice (k k' : term) : Prop :=
  t_variable k = t_variable k' /\
  (t_asset_type k = Some "*" /\ t_asset_type k' = Some "*" \/
   t_asset_type k <> Some "*" /\ t_asset_type k' <> Some "*" /\ t_asset_name k = t_asset_name k' /\ (t_asset_name k = None -> t_asset_type k = t_asset_type k')).
Definition same_meaning (x y : one_term) : Prop :=
  match x, y with
  | TSimple k, TSimple k' => k = k'
  | TTwo w, TTwo w' => w_function w = w_function w' /\ same_operand (w_a w) (w_a w') /\ same_operand (w_b w) (w_b w') /\ w_M w = w_M w' /\
      w_interval_data w = w_interval_data w' /\ w_coefficient w = w_coefficient w'
  | TMany m, TMany m' => m_function m = m_function m' /\ same_choice (m_variables m) (m_variables m') /\ m_M m = m_M m' /\ m_constant m = m_constant m' /\ m_coefficient m = m_coefficient m'
  | _, _ => False
  end.

(** ** Unknown types and functions *)
Lemma rmap_skip {A B} (f : A -> res (list B)) l1 x l2 : f x = Ok [] ->
  (let! ls := rmap f (l1 ++ x :: l2)%list in Ok (List.concat ls)) = (let! ls := rmap f (l1 ++ l2)%list in Ok (List.concat ls)).
Proof.
  intros E. induction l1 as [|y l1 IH]; cbn [app rmap].
  - rewrite E. cbn [rbind]. destruct (rmap f l2); reflexivity.
  - destruct (f y) as [b|]; [|reflexivity]. cbn [rbind]. destruct (rmap f (l1 ++ x :: l2)%list), (rmap f (l1 ++ l2)%list); cbn [rbind List.concat] in *; congruence.
Qed.
Lemma forM_skip {A B} (f : A -> M (list B)) l1 x l2 : (forall o, f x o = Ok ([], o)) ->
  forall o, (ls <- forM (l1 ++ x :: l2)%list f ;; ret (List.concat ls)) o = (ls <- forM (l1 ++ l2)%list f ;; ret (List.concat ls)) o.
Proof.
  intros E. induction l1 as [|y l1 IH]; intros o; cbn [app forM].
  - unfold bind, ret. rewrite E. destruct (forM l2 f o) as [[b o']|]; reflexivity.
  - unfold bind, ret in *. destruct (f y o) as [[b o']|]; [|reflexivity]. specialize (IH o').
    destruct (forM (l1 ++ x :: l2)%list f o') as [[b1 o1]|], (forM (l1 ++ l2)%list f o') as [[b2 o2]|]; cbn [List.concat] in *; congruence.
Qed.
Lemma neq_eqb (a b : string) : a <> b -> (a =? b) = false.
Proof. intros N. destruct (String.eqb_spec a b); [contradiction|reflexivity]. Qed.
Lemma unknown_function s : ~ In s known_functions -> is_two_function s = false /\ is_many_function s = false.
Proof. unfold known_functions, is_two_function, is_many_function. cbn [In]. intros N. rewrite !neq_eqb by (intros ->; apply N; auto). split; reflexivity. Qed.
Lemma silent_parts t : silent t -> one_term_type t <> "simple" /\ (one_term_type t <> "complex" \/ exists f, one_term_function t = Ok f /\ ~ In f known_functions).
Proof. destruct t; cbn [silent one_term_type one_term_function]; [tauto| |]; intros [H [K|K]]; split; eauto. Qed.
(** The program is the one without the term: the term is silently left out. *)
Theorem C77_unknown_ignored : forall slv base c assets cons l1 t l2 fl, silent t ->
  optimize slv base c assets cons (ObjTerms (l1 ++ t :: l2)) fl = optimize slv base c assets cons (ObjTerms (l1 ++ l2)) fl.
Proof.
  intros slv base c assets cons l1 t l2 fl ST. destruct (silent_parts _ ST) as [T1 T2].
  assert (forall iv d o, get_objective (ObjTerms (l1 ++ t :: l2)) iv d o = get_objective (ObjTerms (l1 ++ l2)) iv d o) as G.
  { intros iv d o. cbn [get_objective]. unfold add_simple_terms. rewrite rmap_skip by (unfold simple_term_all; rewrite (neq_eqb _ _ T1); reflexivity).
    assert (forall o', add_two_variable_term iv d t o' = Ok ([], o')) as E2.
    { intros o'. unfold add_two_variable_term. destruct T2 as [T2|(f & F & N)]; [rewrite (neq_eqb _ _ T2); reflexivity|]. destruct (one_term_type t =? "complex"); [|reflexivity].
      unfold bind. rewrite F. cbn [lift]. destruct (unknown_function f N) as [-> _]. reflexivity. }
    assert (forall o', add_many_variables_term iv t o' = Ok ([], o')) as E3.
    { intros o'. unfold add_many_variables_term. destruct T2 as [T2|(f & F & N)]; [rewrite (neq_eqb _ _ T2); reflexivity|]. destruct (one_term_type t =? "complex"); [|reflexivity].
      unfold bind. rewrite F. cbn [lift]. destruct (unknown_function f N) as [_ ->]. reflexivity. }
    assert (forall o', add_two_variable_terms iv d (l1 ++ t :: l2) o' = add_two_variable_terms iv d (l1 ++ l2) o') as A2 by (intros o'; apply (forM_skip _ l1 t l2 E2)).
    assert (forall o', add_many_variables_terms iv (l1 ++ t :: l2) o' = add_many_variables_terms iv (l1 ++ l2) o') as A3 by (intros o'; apply (forM_skip _ l1 t l2 E3)).
    unfold bind. destruct (lift _ o) as [[s o1]|]; [|reflexivity]. rewrite A2. destruct (add_two_variable_terms iv d (l1 ++ l2)%list o1) as [[tw o2]|]; [|reflexivity].
    rewrite A3. reflexivity. }
  unfold optimize, build_program. unfold bind.
  destruct (build_base c assets fl (new_optimizer base)) as [[iv o]|]; [|reflexivity].
  destruct (forM_ cons (fun k => add_custom_constraint k iv (sc_idata c)) o) as [[u o']|]; [|reflexivity].
  rewrite G. reflexivity.
Qed.

(** ** What has no meaning does not change the optimum *)
Lemma same_operand_value q t x y : same_operand x y -> operand_value q t x = operand_value q t y.
Proof. destruct x, y; cbn [same_operand operand_value]; intros H; try contradiction; now rewrite H. Qed.
Lemma opt_eqb_iff o s : opt_eqb o s = true <-> o = Some s.
Proof. destruct o as [x|]; cbn [opt_eqb]; [|split; discriminate]. rewrite String.eqb_eq. split; [now intros ->|congruence]. Qed.
Lemma same_choice_picks k k' p : same_choice k k' -> many_picks k p = many_picks k' p.
Proof.
  intros (_ & [[A B]|(A & B & N & T)]); unfold many_picks; [now rewrite A, B|].
  destruct (opt_eqb (t_asset_type k) "*") eqn:E1; [now apply opt_eqb_iff in E1|]. destruct (opt_eqb (t_asset_type k') "*") eqn:E2; [now apply opt_eqb_iff in E2|].
  rewrite <- N. destruct (t_asset_name k); [reflexivity|]. now rewrite T.
Qed.
Lemma same_many v c assets m m' : same_choice (m_variables m) (m_variables m') -> many_values v c assets m = many_values v c assets m'.
Proof.
  intros SC. unfold many_values. pose proof (fun p => same_choice_picks _ _ p SC) as E. destruct SC as [<- _].
  apply flat_map_ext. intros t. f_equal. apply filter_ext. exact E.
Qed.
Lemma same_value q v c assets k k' : same_meaning k k' -> term_value q v c assets k = term_value q v c assets k'.
Proof.
  destruct k as [k|w|m], k' as [k'|w'|m']; cbn [same_meaning]; intros H; try contradiction.
  - now subst.
  - destruct H as (F & A & B & _ & D & K). cbn [term_value]. unfold horizon. f_equal. apply map_ext. intros t. unfold two_value, of_two.
    now rewrite F, (same_operand_value q t _ _ A), (same_operand_value q t _ _ B), D, K.
  - destruct H as (F & A & _ & C & K). cbn [term_value]. unfold many_value, of_many. now rewrite F, C, K, (same_many v c assets m m' A).
Qed.
Lemma same_covered q v c assets k k' : same_meaning k k' -> covered q v c assets k <-> covered q v c assets k'.
Proof.
  destruct k as [k|w|m], k' as [k'|w'|m']; cbn [same_meaning]; intros H; try contradiction.
  - now subst.
  - destruct H as (F & A & B & M & _). cbn [covered]. split; intros K t Ht; specialize (K t Ht);
      rewrite <- M, <- (same_operand_value q t _ _ A), <- (same_operand_value q t _ _ B) || rewrite M, (same_operand_value q t _ _ A), (same_operand_value q t _ _ B); exact K.
  - destruct H as (F & A & M & C & K). cbn [covered]. rewrite M, C, (same_many v c assets m m' A). reflexivity.
Qed.
(** the same terms in any order, up to what has no meaning *)
Definition same_terms (ks ks' : list one_term) : Prop := exists l, Permutation ks l /\ Forall2 same_meaning l ks'.
Lemma same_terms_sum q v c assets ks ks' : same_terms ks ks' -> objective_sum q v c assets ks == objective_sum q v c assets ks'.
Proof.
  intros (l & P & F). unfold objective_sum.
  rewrite (Qsum_perm _ _ (Permutation_map (term_value q v c assets) P)).
  clear P. induction F as [|x y l' ys H F IH]; [reflexivity|]. cbn [map]. change (term_value q v c assets x + Qsum (map (term_value q v c assets) l') == term_value q v c assets y + Qsum (map (term_value q v c assets) ys)).
  now rewrite (same_value q v c assets _ _ H), IH.
Qed.
Lemma same_terms_covered q v c assets ks ks' : same_terms ks ks' -> Forall (covered q v c assets) ks <-> Forall (covered q v c assets) ks'.
Proof.
  intros (l & P & F). assert (Forall (covered q v c assets) ks <-> Forall (covered q v c assets) l) as ->. { split; apply Permutation_Forall; [exact P|now apply Permutation_sym]. }
  clear P. induction F as [|x y l' ys H F IH]; [split; constructor|]. rewrite !Forall_cons_iff, IH, (same_covered q v c assets _ _ H). reflexivity.
Qed.
Lemma facts_satisfied slv base c assets cons obj fl r d : feasible_run slv base c assets cons obj fl r -> Forall plain_constraint cons -> facts (r_results r) c assets fl d -> Forall (satisfied (quantity d) c assets) cons.
Proof.
  intros R PC FA. rewrite Forall_forall in *. intros k Ik. eapply satisfied_ext; [|exact (PC k Ik)|exact (run_satisfied _ _ _ _ _ _ _ _ _ R Ik (PC k Ik))]. apply (facts_readings _ _ _ _ _ FA).
Qed.
(** Two runs of the same site whose objectives hold the same terms, in any order and whatever stands in the parts without a meaning, report the same optimum:
    so the coefficient and the type of an operand are not used (interval data there, or an asset other than the site, is refused), nor the coefficient of a many-variable term's variables. *)
Theorem C77_same_optimum : forall slv base slv' base' c assets cons ks ks' fl r r' z z',
  feasible_run slv base c assets cons (ObjTerms ks) fl r -> feasible_run slv' base' c assets cons (ObjTerms ks') fl r' -> sound_solver slv -> sound_solver slv' ->
  Forall usual_term ks -> Forall usual_term ks' -> Forall plain_constraint cons -> Forall (asset_sane (sc_freq c)) assets -> same_terms ks ks' ->
  (forall d, physical c assets fl d -> Forall (satisfied (quantity d) c assets) cons -> Forall (covered (quantity d) (single d) c assets) ks) ->
  st_objective (r_status r) = Some z -> st_objective (r_status r') = Some z' -> z == z'.
Proof.
  intros slv base slv' base' c assets cons ks ks' fl r r' z z' R R' SS SS' U U' PC SN ST WIDE Z Z'.
  destruct (C52_optimal_dispatch _ _ _ _ _ _ _ _ R SS U PC SN) as (d & y & FA & Y & V & BEST).
  destruct (C52_optimal_dispatch _ _ _ _ _ _ _ _ R' SS' U' PC SN) as (d' & y' & FA' & Y' & V' & BEST').
  assert (y = z) as -> by (destruct Y as [Y|[Y _]]; congruence). assert (y' = z') as -> by (destruct Y' as [Y'|[Y' _]]; congruence).
  pose proof (facts_satisfied _ _ _ _ _ _ _ _ _ R PC FA) as SA. pose proof (facts_satisfied _ _ _ _ _ _ _ _ _ R' PC FA') as SA'.
  pose proof (fa_physical _ _ _ _ _ FA) as PH. pose proof (fa_physical _ _ _ _ _ FA') as PH'.
  pose proof (BEST d' PH' SA' (WIDE d' PH' SA')) as L1.
  pose proof (BEST' d PH SA (proj1 (same_terms_covered _ _ _ _ _ _ ST) (WIDE d PH SA))) as L2.
  pose proof (same_terms_sum (quantity d) (single d) c assets _ _ ST). pose proof (same_terms_sum (quantity d') (single d') c assets _ _ ST). lra.
Qed.

(** ** The same function term twice *)
Definition stated (o : opt) (v : lpvar) : Prop := exists c, In c (cons_of o) /\ In v (evars (c_expr c)).
Definition makes {A} (nm : string) (m : M A) : Prop := forall o a o', m o = Ok (a, o') ->
  exists v, v_name v = sanitize nm /\ (o_next o <= v_id v < o_next o')%nat /\ stated o' v.
Lemma stated_grows {A} (m : M A) o a o' v : grows m -> m o = Ok (a, o') -> stated o v -> stated o' v.
Proof. intros G E (c & I & J). destruct (G _ _ _ E) as (_ & cs & C). exists c. rewrite C, in_app_iff. auto. Qed.
Lemma makes_first {A B} nm (m : M A) (f : A -> M B) : makes nm m -> (forall a, grows (f a)) -> makes nm (bind m f).
Proof.
  intros MK G o b o' E. rewrite bind_ok in E. destruct E as (a & o1 & E1 & E2). destruct (MK _ _ _ E1) as (v & N & L & S). exists v. splits; auto; try lia.
  - destruct (G a _ _ _ E2) as [L' _]. lia.
  - eapply stated_grows; eauto.
Qed.
Lemma makes_then {A B} nm (m : M A) (f : A -> M B) : grows m -> (forall a, makes nm (f a)) -> makes nm (bind m f).
Proof.
  intros G MK o b o' E. rewrite bind_ok in E. destruct E as (a & o1 & E1 & E2). destruct (MK a _ _ _ E2) as (v & N & L & S). exists v. splits; auto; try lia.
  destruct (G _ _ _ E1) as [L' _]. lia.
Qed.
Definition states {A} (v : lpvar) (m : M A) : Prop := forall o a o', m o = Ok (a, o') -> stated o' v.
Lemma states_constrain v c : In v (evars (c_expr c)) -> states v (constrain c).
Proof. intros I o a o' E. apply constrain_ok in E. subst o'. exists c. split; auto. unfold cons_of. cbn [o_cons]. rewrite map_app, in_app_iff. right. now left. Qed.
Lemma states_first {A B} v (m : M A) (f : A -> M B) : states v m -> (forall a, grows (f a)) -> states v (bind m f).
Proof. intros S G o b o' E. rewrite bind_ok in E. destruct E as (a & o1 & E1 & E2). eapply stated_grows; eauto. Qed.
Lemma states_then {A B} v (m : M A) (f : A -> M B) : (forall o a o', m o = Ok (a, o') -> states v (f a)) -> states v (bind m f).
Proof. intros S o b o' E. rewrite bind_ok in E. destruct E as (a & o1 & E1 & E2). exact (S _ _ _ E1 _ _ _ E2). Qed.
Lemma makes_variable {B} nm l u (f : lpvar -> M B) : (forall v, grows (f v)) -> (forall v, states v (f v)) -> makes nm (bind (continuous nm l u) f).
Proof.
  intros G S o b o' E. rewrite bind_ok in E. destruct E as (v & o1 & E1 & E2). pose proof (S v _ _ _ E2) as ST. destruct (G v _ _ _ E2) as [L _].
  apply cont_ok in E1. destruct E1 as [-> ->]. cbn [o_next] in L. eexists. splits; [| | |exact ST]; cbn [v_name v_id]; auto; lia.
Qed.
Lemma makes_max2 nm a b m : makes (nm ++ "-continuous") (max_two_variables nm a b m).
Proof.
  unfold max_two_variables. apply makes_then; [grow|intros _]. apply makes_then; [grow|intros _]. apply makes_variable; intros v; [grow|].
  apply states_then. intros _ cb _ _. apply states_first; [|intros; grow]. apply states_constrain. cbn [c_expr cge]. rewrite evars_esub, evars_evar. now left.
Qed.
Lemma makes_min2 nm a b m : makes (nm ++ "-continuous") (min_two_variables nm a b m).
Proof.
  unfold min_two_variables. apply makes_then; [grow|intros _]. apply makes_then; [grow|intros _]. apply makes_variable; intros v; [grow|].
  apply states_then. intros _ cb _ _. apply states_first; [|intros; grow]. apply states_constrain. cbn [c_expr cge]. rewrite evars_esub, evars_evar, in_app_iff. right. now left.
Qed.
Lemma binaries_length {A} nm (l : list A) : forall i o bs o', many_binaries nm i l o = Ok (bs, o') -> List.length bs = List.length l.
Proof.
  induction l as [|x l IH]; intros i o bs o' E; cbn [many_binaries] in E; [apply ret_ok in E; destruct E as [<- _]; reflexivity|].
  rewrite bind_ok in E. destruct E as (b & o1 & _ & E). rewrite bind_ok in E. destruct E as (bs' & o2 & E & R). apply ret_ok in R. destruct R as [<- _]. cbn [List.length]. f_equal. eauto.
Qed.
Lemma makes_maxm nm vs m : vs <> [] -> makes (nm ++ "-continuous") (max_many_variables nm vs m).
Proof.
  intros NE. unfold max_many_variables. apply makes_then; [grow|intros _]. apply makes_variable; intros v; [grow|].
  apply states_then. intros o bs o' E. apply binaries_length in E. apply states_then. intros _ _ _ _.
  destruct vs as [|x vs]; [now destruct NE|]. destruct bs as [|b bs]; [discriminate|]. cbn [combine forM_ fst snd].
  apply states_first; [|intros; grow]. apply states_first; [|intros; grow]. apply states_first; [|intros; grow]. apply states_constrain. cbn [c_expr cge]. rewrite evars_esub, evars_evar. now left.
Qed.
Lemma makes_minm nm vs m : vs <> [] -> makes (nm ++ "-continuous") (min_many_variables nm vs m).
Proof.
  intros NE. unfold min_many_variables. apply makes_then; [grow|intros _]. apply makes_variable; intros v; [grow|].
  apply states_then. intros o bs o' E. apply binaries_length in E. apply states_then. intros _ _ _ _.
  destruct vs as [|x vs]; [now destruct NE|]. destruct bs as [|b bs]; [discriminate|]. cbn [combine forM_ fst snd].
  apply states_first; [|intros; grow]. apply states_first; [|intros; grow]. apply states_first; [|intros; grow]. apply states_constrain. cbn [c_expr cle]. rewrite evars_esub, evars_evar. now left.
Qed.
Definition doubles {A} (nm : string) (m : M A) : Prop := forall o a o', m o = Ok (a, o') ->
  exists v w, v_name v = sanitize nm /\ v_name w = sanitize nm /\ v_id v <> v_id w /\ stated o' v /\ stated o' w.
Lemma doubles_first {A B} nm (m : M A) (f : A -> M B) : doubles nm m -> (forall a, grows (f a)) -> doubles nm (bind m f).
Proof.
  intros D G o b o' E. rewrite bind_ok in E. destruct E as (a & o1 & E1 & E2). destruct (D _ _ _ E1) as (v & w & N & N' & L & S & S'). exists v, w. splits; auto; eapply stated_grows; eauto.
Qed.
Lemma doubles_then {A B} nm (m : M A) (f : A -> M B) : (forall a, doubles nm (f a)) -> doubles nm (bind m f).
Proof. intros D o b o' E. rewrite bind_ok in E. destruct E as (a & o1 & E1 & E2). exact (D _ _ _ _ E2). Qed.
Lemma makes_twice {A B} nm (m : M A) (f : A -> M B) : makes nm m -> (forall a, makes nm (f a)) -> (forall a, grows (f a)) -> doubles nm (bind m f).
Proof.
  intros MK MF G o b o' E. rewrite bind_ok in E. destruct E as (a & o1 & E1 & E2). destruct (MK _ _ _ E1) as (v & N & L & S). destruct (MF _ _ _ _ E2) as (w & N' & L' & S').
  exists v, w. splits; auto; [lia|]. eapply stated_grows; eauto.
Qed.
Lemma makes_forM {A B} nm (f : A -> M B) l1 x l2 : (forall y, grows (f y)) -> makes nm (f x) -> makes nm (forM (l1 ++ x :: l2)%list f).
Proof.
  intros G MK. induction l1 as [|y l1 IH]; cbn [app forM]; [apply makes_first; [auto|intros; grow]|]. apply makes_then; [auto|intros]. apply makes_first; [auto|intros; grow].
Qed.
Lemma doubles_forM {A B} nm (f : A -> M B) l1 x l2 y l3 : (forall z, grows (f z)) -> makes nm (f x) -> makes nm (f y) -> doubles nm (forM (l1 ++ x :: l2 ++ y :: l3)%list f).
Proof.
  intros G MX MY. induction l1 as [|z l1 IH]; cbn [app forM].
  - apply makes_twice; [auto| |intros; grow]. intros a. apply makes_first; [now apply makes_forM|intros; grow].
  - apply doubles_then. intros a. apply doubles_first; [auto|intros; grow].
Qed.

(** Two terms the program cannot tell apart by name: a two-variable term is named after its function and its two operands only. *)
Definition same_label (x y : one_term) : Prop :=
  match x, y with
  | TTwo w, TTwo w' => w_type w = "complex" /\ w_type w' = "complex" /\ In (w_function w) ["max_two_variables"; "min_two_variables"] /\
      w_function w = w_function w' /\ w_a w = w_a w' /\ w_b w = w_b w'
  | TMany m, TMany m' => m_type m = "complex" /\ In (m_function m) ["max_many_variables"; "min_many_variables"] /\ m = m'
  | _, _ => False
  end.
Lemma grows_two iv d t : grows (add_two_variable_term iv d t).
Proof. unfold add_two_variable_term. grow. Qed.
Lemma grows_many iv t : grows (add_many_variables_term iv t).
Proof. unfold add_many_variables_term. grow. Qed.
Lemma makes_lifted {A B} nm (x : A) (f : A -> M B) : makes nm (f x) -> makes nm (bind (lift (Ok x)) f).
Proof. intros H o b o' E. exact (H o b o' E). Qed.
Definition two_label (w : two_term) : string := (w_function w ++ "-i=" ++ show 0 ++ "-term.a=" ++ repr_tn (w_a w) ++ "-term.b=" ++ repr_tn (w_b w)) ++ "-continuous".
Lemma two_at_makes iv d w : makes (two_label w) (two_term_at iv d w 0).
Proof.
  unfold two_term_at. apply makes_then; [grow|intros _]. apply makes_then; [grow|intros _]. apply makes_then; [grow|intros a]. apply makes_then; [grow|intros b].
  apply makes_first; [|intros; grow]. unfold two_label. destruct (w_function w =? "max_two_variables"); [apply makes_max2|apply makes_min2].
Qed.
Lemma two_makes iv d w : w_type w = "complex" -> In (w_function w) ["max_two_variables"; "min_two_variables"] -> (0 < id_n d)%nat -> makes (two_label w) (add_two_variable_term iv d (TTwo w)).
Proof.
  intros T F Hn. unfold add_two_variable_term. cbn [one_term_type one_term_function]. rewrite T, String.eqb_refl. apply makes_lifted.
  assert (is_two_function (w_function w) = true) as ->. { unfold is_two_function. destruct F as [<-|[<-|[]]]; reflexivity. }
  destruct (id_n d) as [|n]; [lia|]. cbn [seq]. apply (makes_forM _ _ [] 0%nat); [intros; unfold two_term_at; grow|]. apply two_at_makes.
Qed.
Definition many_label (m : many_term) : string := (m_function m ++ "-term=" ++ repr_many m) ++ "-continuous".
Lemma many_makes iv m : m_type m = "complex" -> In (m_function m) ["max_many_variables"; "min_many_variables"] -> makes (many_label m) (add_many_variables_term iv (TMany m)).
Proof.
  intros T F. unfold add_many_variables_term. cbn [one_term_type one_term_function]. rewrite T, String.eqb_refl. apply makes_lifted.
  assert (is_many_function (m_function m) = true) as ->. { unfold is_many_function. destruct F as [<-|[<-|[]]]; reflexivity. }
  apply makes_then; [grow|intros _]. destruct (many_operands iv m) as [vs|] eqn:E; [|intros o a o' X; discriminate X]. apply makes_lifted. apply makes_first; [|intros; grow].
  assert (vs <> []) as NE. { unfold many_operands in E. destruct (many_assets iv (m_variables m)); [|discriminate]. cbn [rbind] in E. destruct (rmap _ _) as [l0|]; [|discriminate]. injection E as <-. intros X. destruct (app_eq_nil _ _ X) as [_ Y]. discriminate Y. }
  unfold many_label. destruct (m_function m =? "max_many_variables"); [now apply makes_maxm|now apply makes_minm].
Qed.
(** An objective holding two such terms cannot be optimised: PuLP refuses two variables of one name. *)
Theorem C77_twice : forall slv base c assets cons l1 t l2 t' l3 fl r, same_label t t' -> (0 < n_intervals c)%nat ->
  optimize slv base c assets cons (ObjTerms (l1 ++ t :: l2 ++ t' :: l3)) fl <> Ok r.
Proof.
  intros slv base c assets cons l1 t l2 t' l3 fl r SL Hn E. destruct (C54_returned_distinct _ _ _ _ _ _ _ _ E) as (iv & o & B & U).
  destruct (program_split _ _ _ _ _ _ _ _ B) as (o1 & o2 & cs & extra & e & _ & _ & _ & _ & (o3 & GO & EO) & _).
  assert (exists nm, doubles nm (get_objective (ObjTerms (l1 ++ t :: l2 ++ t' :: l3)) iv (sc_idata c))) as (nm & D).
  { destruct t as [k|w|m], t' as [k'|w'|m']; try contradiction SL.
    - destruct SL as (T & T' & F & FF & A & B'). exists (two_label w). cbn [get_objective]. apply doubles_then. intros sm. apply doubles_first; [|intros; unfold add_many_variables_terms; grow; apply grows_many].
      apply doubles_first; [|intros; grow]. apply doubles_forM; [intros; apply grows_two|now apply two_makes|].
      assert (two_label w = two_label w') as -> by (unfold two_label; now rewrite FF, A, B'). apply two_makes; auto. now rewrite <- FF.
    - destruct SL as (T & F & <-). exists (many_label m). cbn [get_objective]. apply doubles_then. intros sm. apply doubles_then. intros tw. apply doubles_first; [|intros; grow].
      apply doubles_first; [|intros; grow]. apply doubles_forM; [intros; apply grows_many|now apply many_makes|now apply many_makes]. }
  destruct (D _ _ _ GO) as (v & w & N & N' & L & S & S').
  assert (forall x, stated o3 x -> In x (all_occurrences o)) as OC.
  { intros x (k & I & J). subst o. unfold all_occurrences. apply in_or_app. right. cbn [o_cons]. unfold cons_of in I. apply in_map_iff in I. destruct I as (nc & <- & I). apply in_flat_map. eauto. }
  apply L. f_equal. apply U; auto. congruence.
Qed.

(** ** Samples *)
Definition ig_site : site_cfg := mkSiteCfg (mkIdata [10] [0] [(1#10)] [0] [4] [0] [0] [0] 1 []) 60%Z 100 50.
Definition ig_cost : one_term := TSimple (mkTerm "import_power_mwh" (Some "site") (Some "electricity_prices") None 1 "simple").
(** the coefficient k inside of the function *)
Definition ig_max (k : Q) : one_term := TTwo (mkTwo "max_two_variables" (TTerm (mkTerm "import_power_mwh" None None (Some "site") k "simple")) (TNumber 5) 1000 None 1 "complex").
Definition ig_many (k : Q) (ty : option string) : one_term := TMany (mkMany "max_many_variables" (mkTerm "import_power_mwh" ty None (Some "site") k "simple") 1000 5 200 "complex").
Definition ig_terms : list one_term := [ig_cost; ig_max 1; ig_many 1 (Some "site")].
Definition ig_terms' : list one_term := [ig_many 3 (Some "battery"); ig_cost; ig_max 2].
Definition ig_solver : solver := certified [4; 0; 1; 0; 5; 1; 5; 0; 0] [10; 0; 0; 0; 0; 0; 0; 1; 0; 0; 0; 0; 200].
Definition ig_result : sim_result := Eval vm_compute in result_of (optimize ig_solver 0 ig_site [] [] (ObjTerms ig_terms) default_flags).
Definition ig_result' : sim_result := Eval vm_compute in result_of (optimize ig_solver 0 ig_site [] [] (ObjTerms ig_terms') default_flags).
Lemma ig_names : names_ok ig_site [].
Proof. split; [|split]; [intros a []|intros col []|intros e []]. Qed.
Lemma ig_run : feasible_run ig_solver 0 ig_site [] [] (ObjTerms ig_terms) default_flags ig_result.
Proof. constructor; [apply sound_honest, certified_sound|vm_compute; reflexivity|reflexivity|constructor|exact ig_names]. Qed.
Lemma ig_run' : feasible_run ig_solver 0 ig_site [] [] (ObjTerms ig_terms') default_flags ig_result'.
Proof. constructor; [apply sound_honest, certified_sound|vm_compute; reflexivity|reflexivity|constructor|exact ig_names]. Qed.
Lemma ig_usual : Forall usual_term ig_terms /\ Forall usual_term ig_terms'.
Proof.
  assert (forall x l, existsb (String.eqb x) l = true -> In x l) as IN.
  { intros x l H. apply existsb_exists in H. destruct H as (y & Iy & H). apply String.eqb_eq in H. now subst. }
  assert (usual_term ig_cost) as U1 by (split; [reflexivity|apply IN; reflexivity]).
  assert (forall k, usual_term (ig_max k)) as U2 by (intros k; unfold ig_max; cbn [usual_term]; splits; [reflexivity|apply IN; reflexivity|apply (IN "import_power_mwh"); reflexivity|exact Logic.I]).
  assert (forall k ty, usual_term (ig_many k ty)) as U3 by (intros k ty; unfold ig_many; cbn [usual_term]; splits; [reflexivity|apply IN; reflexivity|apply IN; reflexivity|intros _; discriminate]).
  split; [apply Forall_cons; [auto|apply Forall_cons; [auto|apply Forall_cons; [auto|constructor]]]|apply Forall_cons; [auto|apply Forall_cons; [auto|apply Forall_cons; [auto|constructor]]]].
Qed.
Lemma ig_same : same_terms ig_terms ig_terms'.
Proof.
  exists [ig_many 1 (Some "site"); ig_cost; ig_max 1]. split; [apply Permutation_sym, (Permutation_cons_append [ig_cost; ig_max 1])|].
  constructor; [|constructor; [reflexivity|constructor; [|constructor]]].
  - unfold ig_many; cbn [same_meaning]; unfold same_choice; splits; try reflexivity. right. splits; try reflexivity; discriminate.
  - unfold ig_max; cbn [same_meaning]; splits; reflexivity.
Qed.
Lemma ig_wide : forall d, physical ig_site [] default_flags d -> Forall (satisfied (quantity d) ig_site []) [] -> Forall (covered (quantity d) (single d) ig_site []) ig_terms.
Proof.
  intros d (P & _) _. destruct (P 0%nat ltac:(cbn; lia)) as ((GI & _) & _). assert (energy (sc_freq ig_site) (sc_import_limit_mw ig_site) == 100) as E by reflexivity. unfold between in GI. rewrite E in GI.
  apply Forall_cons; [exact Logic.I|apply Forall_cons; [|apply Forall_cons; [|constructor]]].
  - intros t Ht. change (t < 1)%nat in Ht. assert (t = 0%nat) as -> by lia. change (Qabs (d_import d 0%nat - 5) <= 1000). apply Qabs_Qle_condition. lra.
  - change (forall x y, In x [5; d_import d 0%nat] -> In y [5; d_import d 0%nat] -> x - y <= 1000). intros x y [<-|[<-|[]]] [<-|[<-|[]]]; lra.
Qed.
(** 4 * 10 + 5 + 200 * 5: with the coefficient 2 counted the larger of 2 * 4 and 5 would be 8. *)
Example C77_same_sample : forall z z', st_objective (r_status ig_result) = Some z -> st_objective (r_status ig_result') = Some z' -> z == z'.
Proof.
  intros z z'. exact (C77_same_optimum _ _ _ _ _ _ _ _ _ _ _ _ z z' ig_run ig_run' (certified_sound _ _) (certified_sound _ _) (proj1 ig_usual) (proj2 ig_usual) (Forall_nil _) (Forall_nil _) ig_same ig_wide).
Qed.
(** "An operand's coefficient multiplies it" is false of the library. *)
Theorem C77_inner_coefficient_refuted : exists slv base c assets ks fl r z, feasible_run slv base c assets [] (ObjTerms ks) fl r /\ sound_solver slv /\ Forall usual_term ks /\
  In (ig_max 2) ks /\ st_objective (r_status r) = Some z /\ r_import r 0%nat == 4 /\
  ~ z == 4 * 10 + Qmax (2 * r_import r 0%nat) 5 + 200 * 5 /\ z == 4 * 10 + Qmax (r_import r 0%nat) 5 + 200 * 5.
Proof.
  exists ig_solver, 0%nat, ig_site, [], ig_terms', default_flags, ig_result', (1045#1). splits; [exact ig_run'|apply certified_sound|exact (proj2 ig_usual)|right; right; now left|vm_compute; reflexivity|vm_compute; reflexivity|vm_compute; discriminate|vm_compute; reflexivity].
Qed.
(** Two charges on the same pair, of different size: each alone is fine, together they are refused. *)
Definition ig_charge (k : Q) : one_term := TTwo (mkTwo "max_two_variables" (TTerm (mkTerm "import_power_mwh" None None (Some "site") 1 "simple")) (TNumber 5) 1000 (Some "electricity_prices") k "complex").
Example C77_twice_sample : same_label (ig_max 1) (ig_charge 7) /\ forall slv base r, optimize slv base ig_site [] [] (ObjTerms [ig_cost; ig_max 1; ig_charge 7]) default_flags <> Ok r.
Proof.
  assert (same_label (ig_max 1) (ig_charge 7)) as SL. { unfold ig_max, ig_charge. cbn [same_label]. splits; try reflexivity. now left. }
  split; [exact SL|]. intros slv base r. exact (C77_twice slv base ig_site [] [] [ig_cost] (ig_max 1) [] (ig_charge 7) [] default_flags r SL ltac:(cbn; lia)).
Qed.
Example C77_silent_sample : silent (TTwo (mkTwo "max_two_variable" (TTerm (mkTerm "import_power_mwh" None None None 1 "simple")) (TNumber 5) 10 None 1 "complex")).
Proof. split; [discriminate|]. right. unfold known_functions. cbn [In]. intros H. repeat (destruct H as [H|H]; [discriminate H|]). exact H. Qed.
