(** * Builds: the program of every well formed site is built without an exception *)
From Verif Require Import Base Pulp Params Optimizer Types Assets EVs Site Constraints Objectives Extract Pipeline Emit Prim Spec SpecReport SpecRun Layout Rows Sem SemEv SemSite SemProg SemObj.
Open Scope Q_scope.

From Coq Require Import DecimalString DecimalNat.
Lemma to_uint_nonnil k : Nat.to_uint k <> Decimal.Nil.
Proof. destruct k as [|k]; [discriminate|]. intros H. apply (f_equal Nat.of_uint) in H. rewrite DecimalNat.Unsigned.of_to in H. discriminate. Qed.
Lemma show_inj i j : show i = show j -> i = j.
Proof.
  unfold show. intros H. assert (NilZero.uint_of_string (NilZero.string_of_uint (Nat.to_uint i)) = NilZero.uint_of_string (NilZero.string_of_uint (Nat.to_uint j))) as K by now rewrite H.
  rewrite !NilZero.usu in K by apply to_uint_nonnil. injection K as K. now apply DecimalNat.Unsigned.to_uint_inj.
Qed.

(** the names given to constraints *)
Definition names_of (o : opt) : list string := flat_map (fun nc : option string * constr => match fst nc with Some n => [n] | None => [] end) (o_cons o).
(** [m] returns, with a result satisfying [P], and names no constraint *)
Definition smooth {A} (m : M A) (P : A -> Prop) : Prop :=
  forall o, exists x o', m o = Ok (x, o') /\ names_of o' = names_of o /\ P x.
Lemma smooth_ret {A} (x : A) (P : A -> Prop) : P x -> smooth (ret x) P.
Proof. intros H o. exists x, o. auto. Qed.
Lemma smooth_bind {A B} (m : M A) (f : A -> M B) P Q : smooth m P -> (forall x, P x -> smooth (f x) Q) -> smooth (bind m f) Q.
Proof.
  intros H K o. destruct (H o) as (x & o1 & E1 & N1 & Px). destruct (K x Px o1) as (y & o2 & E2 & N2 & Qy).
  exists y, o2. unfold bind. rewrite E1. splits; auto. congruence.
Qed.
Lemma smooth_weaken {A} (m : M A) (P Q : A -> Prop) : smooth m P -> (forall x, P x -> Q x) -> smooth m Q.
Proof. intros H K o. destruct (H o) as (x & o1 & E1 & N1 & Px). exists x, o1. auto. Qed.
Lemma smooth_lift {A} (r : res A) x (P : A -> Prop) : r = Ok x -> P x -> smooth (lift r) P.
Proof. intros -> H o. exists x, o. auto. Qed.
Definition any {A} (_ : A) : Prop := True.
Lemma smooth_continuous n l u : smooth (continuous n l u) any.
Proof. intros o. do 2 eexists. splits; try reflexivity. Qed.
Lemma smooth_binary n : smooth (binary n) any.
Proof. intros o. do 2 eexists. splits; try reflexivity. Qed.
Lemma smooth_constrain c : smooth (constrain c) any.
Proof. intros o. do 2 eexists. splits; try reflexivity. unfold names_of. cbn [o_cons]. rewrite flat_map_app. cbn. apply List.app_nil_r. Qed.
Lemma smooth_forM_ {A} (l : list A) f : (forall x, In x l -> smooth (f x) any) -> smooth (forM_ l f) any.
Proof.
  induction l as [|x l IH]; intros H; [apply smooth_ret; exact I|]. cbn [forM_]. eapply smooth_bind; [apply H; now left|].
  intros _ _. apply IH. intros y Iy. apply H. now right.
Qed.
Lemma smooth_forM {A B} (l : list A) (f : A -> M B) : (forall x, In x l -> smooth (f x) any) -> smooth (forM l f) any.
Proof.
  induction l as [|x l IH]; intros H; [apply smooth_ret; exact I|]. cbn [forM]. eapply smooth_bind; [apply H; now left|].
  intros y _. eapply smooth_bind; [apply IH; intros z Iz; apply H; now right|]. intros ys _. apply smooth_ret. exact I.
Qed.
Ltac smooth := repeat first
  [ apply smooth_continuous | apply smooth_binary | apply smooth_constrain | (apply smooth_ret; exact I)
  | match goal with |- smooth (bind _ _) _ => eapply (smooth_bind _ _ any); [|intros ? _] end
  | match goal with |- smooth (constrain_max _ _ _) _ => apply smooth_constrain | |- smooth (constrain_min _ _ _) _ => apply smooth_constrain end
  | match goal with |- smooth (if ?b then _ else _) _ => destruct b end ].

Section Ready.
Context (c : site_cfg) (assets : list asset) (fl : flags) (RD : site_ready c assets).
Notation n := (n_intervals c).
Notation f := (sc_freq c).
Lemma ready_at a : In a assets -> asset_ready n a.
Proof. destruct RD as (_ & _ & _ & H). rewrite Forall_forall in H. apply H. Qed.

Lemma smooth_event e i (b : evs_cfg) : In (AEVs b) assets -> (e < List.length (ev_event_cfgs b))%nat -> (i < n)%nat -> exists q, event_at (ev_events b) i e = Ok q.
Proof.
  intros Ia He Hi. destruct (ready_at _ Ia) as (_ & _ & _ & H). specialize (H e He). unfold event_at, nth_res.
  destruct (nth_error (ev_events b) e) as [row|] eqn:E.
  - rewrite (nth_error_nth _ _ _ E) in H. destruct (nth_error_lt row i ltac:(lia)) as (q & ->). exists q. reflexivity.
  - rewrite nth_overflow in H by (now apply nth_error_None). cbn in H. lia.
Qed.
Lemma smooth_evs_for b chargers i x y z : In (AEVs b) assets -> (i < n)%nat -> smooth (evs_one_interval_for b chargers i f fl x y z) any.
Proof.
  intros Ia Hi. unfold evs_one_interval_for. eapply smooth_bind; [|intros ? _; apply smooth_ret; exact I]. apply smooth_forM. intros [e ec] Ie. cbn [fst snd]. unfold ev_event.
  apply enumerate_in in Ie. assert (e < List.length (ev_event_cfgs b))%nat as He by (apply nth_error_Some; congruence). destruct (smooth_event e i b Ia He Hi) as (q & Eq).
  eapply (smooth_bind _ _ any); [smooth|]. intros socs _. apply smooth_forM. intros [k cc] Ik. cbn [fst snd]. unfold ev_pair. rewrite Eq.
  eapply (smooth_bind _ _ any).
  { destruct (limit_charge_variables_to_valid_events fl); [|smooth]. eapply smooth_bind; [eapply (smooth_lift (Ok q) q any); [reflexivity|exact I]|]. intros q' _. smooth. }
  intros pair _. smooth.
Qed.
Lemma smooth_one a i : In a assets -> (i < n)%nat -> smooth (asset_one_interval a i f fl) any.
Proof.
  intros Ia Hi. destruct a as [b|b|b|b|b|b|nm|nm]; cbn [asset_one_interval].
  4:{ unfold evs_one_interval. eapply smooth_bind; [now apply smooth_evs_for|]. intros ? _. eapply smooth_bind; [now apply smooth_evs_for|]. intros ? _. apply smooth_ret. exact I. }
  5:{ destruct (ready_at _ Ia) as [R1 R2]. unfold rg_one_interval. cbv zeta. rewrite R1. cbn [massert].
      destruct (nth_error_lt (rg_available_mwh b) i ltac:(lia)) as (q & Eq). unfold nth_res. rewrite Eq. cbn [of_option].
      eapply (smooth_bind _ _ any); [|intros ? _; apply smooth_ret; exact I]. eapply (smooth_bind _ _ any); [apply smooth_ret; exact I|]. intros _ _.
      eapply smooth_bind; [eapply (smooth_lift (Ok q) q any); [reflexivity|exact I]|]. intros q' _. smooth. }
  all: unfold battery_one_interval, boiler_one_interval, chp_one_interval, hp_one_interval, spill_one_interval, valve_one_interval; cbv zeta; smooth.
Qed.

(** the site's own constraints: the electricity balance is named after the interval *)
Definition balance_name (i : nat) : string := ("site_electricity_balance,i:" ++ show i)%string.
Lemma balance_name_inj i j : balance_name i = balance_name j -> i = j.
Proof. unfold balance_name. cbn [String.append]. intros H. repeat (injection H as H). now apply show_inj. Qed.
Lemma find_last iv r rest : tio_name r = "site"%string -> smooth (find_site (iv ++ [OISite r :: rest])%list) (fun x => x = r).
Proof.
  intros Nm. unfold find_site, filter_objective_variables. rewrite py_index_last. cbn [rbind filter]. unfold matches at 1. cbn [kind_of kind_eqb oi_name andb]. rewrite Nm, String.eqb_refl.
  eapply smooth_bind; [eapply smooth_lift; [reflexivity|instantiate (1 := fun l => exists l', l = OISite r :: l'); cbn beta; eauto]|]. intros l (l' & ->). cbn [hd_res].
  eapply smooth_bind; [eapply (smooth_lift (Ok (OISite r)) _ (fun x => x = OISite r)); reflexivity|]. intros ? ->. now apply smooth_ret.
Qed.
Lemma site_within iv r rest i : (i < n)%nat -> tio_name r = "site"%string -> forall o, (forall j, (i <= j)%nat -> ~ In (balance_name j) (names_of o)) ->
  exists o', site_constrain_within (sc_idata c) (iv ++ [OISite r :: rest])%list i o = Ok (tt, o') /\ names_of o' = (names_of o ++ [balance_name i])%list.
Proof.
  intros Hi Nm o FR. destruct RD as (_ & (_ & _ & _ & _ & L1 & L2 & L3 & L4) & _).
  assert (forall l : list Q, List.length l = id_n (sc_idata c) -> exists q, nth_res l i = Ok q) as G.
  { intros l L. unfold n_intervals in Hi. destruct (nth_error_lt l i ltac:(lia)) as (q & E). exists q. unfold nth_res. now rewrite E. }
  destruct (G _ L1) as (q1 & E1). destruct (G _ L2) as (q2 & E2). destruct (G _ L3) as (q3 & E3). destruct (G _ L4) as (q4 & E4).
  unfold site_constrain_within. unfold bind at 1. unfold constrain_site_electricity_balance. rewrite py_index_last, E1.
  unfold bind at 1. cbn [lift]. unfold bind at 1. destruct (find_last iv r rest Nm o) as (r' & o1 & F1 & N1 & ->). rewrite F1. unfold bind at 1. cbn [lift].
  unfold constrain_named at 1. destruct (existsb _ (o_cons o1)) eqn:EX.
  { exfalso. apply existsb_exists in EX. destruct EX as ([nm k] & I1 & I2). cbn [fst] in I2. destruct nm as [m|]; [|discriminate]. apply String.eqb_eq in I2. apply (FR i (le_n i)). rewrite <- N1.
    unfold names_of. apply in_flat_map. exists (Some m, k). split; auto. cbn. left. symmetry. exact I2. }
  match goal with |- exists o', _ ?x = _ /\ _ => set (o2 := x) end.
  assert (names_of o2 = (names_of o ++ [balance_name i])%list) as N2. { rewrite <- N1. unfold o2, names_of. cbn [o_cons]. now rewrite flat_map_app. }
  rewrite <- N2. clearbody o2. clear -Nm E2 E3 E4.
  assert (let jv := (iv ++ [OISite r :: rest])%list in smooth (constrain_site_import_export jv;;; constrain_site_high_temperature_heat_balance (sc_idata c) jv i;;; constrain_site_low_temperature_heat_balance (sc_idata c) jv i) any) as S; [cbv zeta|].
  { eapply (smooth_bind _ _ any).
    - unfold constrain_site_import_export. eapply smooth_bind; [now apply find_last|]. intros ? ->. smooth.
    - intros _ _. eapply (smooth_bind _ _ any).
      + unfold constrain_site_high_temperature_heat_balance. eapply smooth_bind; [eapply (smooth_lift _ _ any); [apply py_index_last|exact I]|]. intros ? _. rewrite E2. eapply smooth_bind; [eapply (smooth_lift _ _ any); [reflexivity|exact I]|]. intros ? _. smooth.
      + intros _ _. unfold constrain_site_low_temperature_heat_balance. eapply smooth_bind; [eapply (smooth_lift _ _ any); [apply py_index_last|exact I]|]. intros ? _. rewrite E3, E4. eapply smooth_bind; [eapply (smooth_lift _ _ any); [reflexivity|exact I]|]. intros ? _. eapply smooth_bind; [eapply (smooth_lift _ _ any); [reflexivity|exact I]|]. intros ? _. smooth. }
  destruct (S o2) as ([] & o3 & E & N & _). exists o3. auto.
Qed.
(** ** the assets' constraints *)
Lemma smooth_pair (b : evs_cfg) cc i e x y : In (AEVs b) assets -> (e < List.length (ev_event_cfgs b))%nat -> (i < n)%nat -> smooth (constrain_pair b f cc i e x y) any.
Proof.
  intros Ia He Hi. destruct (smooth_event e i b Ia He Hi) as (q & Eq). unfold constrain_pair. destruct x; try (apply smooth_ret; exact I). rewrite Eq.
  eapply (smooth_bind _ _ any); [smooth|intros _ _]. eapply (smooth_bind _ _ any); [smooth|intros _ _]. eapply (smooth_bind _ _ any); [eapply smooth_lift; [reflexivity|exact I]|intros ? _]. smooth.
Qed.
Lemma smooth_min_max a b chargers i d : In (AEVs b) assets -> (i < n)%nat -> smooth (constrain_charge_discharge_min_max a b f chargers i d) any.
Proof.
  intros Ia Hi. unfold constrain_charge_discharge_min_max. apply smooth_forM_. intros [e ec] Ie. cbn [fst snd]. apply enumerate_in in Ie. assert (e < List.length (ev_event_cfgs b))%nat as He by (apply nth_error_Some; congruence).
  apply smooth_forM_. intros [k cc] _. cbn [fst snd]. eapply (smooth_bind _ _ any); [now apply smooth_pair|intros _ _]. destruct d; [now apply smooth_pair|apply smooth_ret; exact I].
Qed.
Lemma fill_all_ok l : forall a, (forall r, In r l -> (eoi_event r < n_events (ea_cfg a))%nat /\ (eoi_charger r < n_chargers (ea_cfg a))%nat) -> exists a', fill_all a l = Ok a'.
Proof.
  induction l as [|r l IH]; intros a H; cbn [fill_all]; [eauto|]. destruct (H r (or_introl eq_refl)) as [H1 H2]. unfold fill_array. rewrite (proj2 (Nat.ltb_lt _ _) H1), (proj2 (Nat.ltb_lt _ _) H2). cbn [andb rbind].
  apply IH. intros r' I'. cbn [ea_cfg]. apply H. now right.
Qed.
Lemma create_ok jv i t b xs (w : bool) row : In (AEVs b) assets -> py_index jv i = Ok row -> owns (AEVs b) t f fl row xs -> exists a, create_evs_array jv i (ev_name b) w = Ok a.
Proof.
  intros Ia PI (SH & _ & FI). destruct (ready_at _ Ia) as (R1 & R2 & R3 & _). destruct SH as (S0 & S1 & G & Sp & -> & _ & SE & SS). change (List.length (ev_event_cfgs b)) with (n_events b) in *. change (List.length (ev_chargers b)) with (n_chargers b) in *.
  unfold create_evs_array, filter_objective_variables. rewrite PI. cbn [rbind]. change (ev_name b) with (asset_name (AEVs b)). rewrite (FI (if w then KEvSpill else KEv)) by (destruct w; discriminate).
  assert (filter (fun x => kind_eqb (kind_of x) (if w then KEvSpill else KEv)) (map OIEv (grid G (n_events b) (n_chargers b)) ++ map OIEvSpill (grid Sp (n_events b) (List.length (ev_spill_chargers b))))%list
     = map (ev_wrap w) (if w then grid Sp (n_events b) 1 else grid G (n_events b) (n_chargers b))) as ->.
  { rewrite filter_app, R1. destruct w; [rewrite (filter_none _ (map OIEv _)), filter_all|rewrite filter_all, (filter_none _ (map OIEvSpill _)), List.app_nil_r]; try reflexivity; intros x Ix; apply in_map_iff in Ix; destruct Ix as (y & <- & _); reflexivity. }
  rewrite rmap_as_ev. cbn [rbind].
  assert (forall r, In r (if w then grid Sp (n_events b) 1 else grid G (n_events b) (n_chargers b)) -> eoi_cfg r = b /\ (eoi_event r < n_events b)%nat /\ (eoi_charger r < n_chargers b)%nat) as IN.
  { intros r Ir. destruct w; apply in_grid in Ir; destruct Ir as (e & k & He & Hk & ->); destruct (nth_error_lt _ _ He) as (ec & Ee).
    - destruct (nth_error_lt (ev_spill_chargers b) k ltac:(lia)) as (cc & Ek). destruct (SS e ec k cc Ee Ek) as (A1 & _ & A3 & _ & A5 & _). rewrite A1, A3, A5. splits; auto; lia.
    - destruct (nth_error_lt _ _ Hk) as (cc & Ek). destruct (SE e ec k cc Ee Ek) as (A1 & _ & A3 & _ & A5 & _). rewrite A1, A3, A5. auto. }
  assert (List.length (if w then grid Sp (n_events b) 1 else grid G (n_events b) (n_chargers b)) = if w then n_events b else (n_events b * n_chargers b)%nat) as LN.
  { destruct w; rewrite grid_length; lia. }
  assert (forall l : list ev_oi, List.length l = (if w then n_events b else (n_events b * n_chargers b)%nat) -> (forall r, In r l -> eoi_cfg r = b /\ (eoi_event r < n_events b)%nat /\ (eoi_charger r < n_chargers b)%nat) ->
    exists a, (let! r0 := hd_res l in check (List.length l =? (if w then n_events (eoi_cfg r0) else n_events (eoi_cfg r0) * n_chargers (eoi_cfg r0)))%nat ;; fill_all (empty_array (eoi_cfg r0)) l) = Ok a) as K.
  { clear -R2 R3. intros [|r l] L H; [exfalso; cbn in L; destruct w; nia|]. unfold hd_res. rewrite py_index_first. cbn [rbind]. destruct (H r (or_introl eq_refl)) as (E & _). rewrite E, L, Nat.eqb_refl. cbn [rassert rbind].
    apply fill_all_ok. intros r' I'. cbn [empty_array ea_cfg]. destruct (H r' I') as (_ & ?). auto. }
  exact (K _ LN IN).
Qed.
Lemma ev_only (g h : list ev_oi) : filter (fun x => kind_eqb (kind_of x) KEv) (map OIEv g ++ map OIEvSpill h)%list = map OIEv g.
Proof. rewrite filter_app, filter_all, (filter_none _ (map OIEvSpill h)), List.app_nil_r; [reflexivity|intros x Ix; apply in_map_iff in Ix; destruct Ix as (y & <- & _); reflexivity..]. Qed.
Lemma create_cfg jv i t b xs row a : py_index jv i = Ok row -> owns (AEVs b) t f fl row xs -> create_evs_array jv i (ev_name b) false = Ok a -> ea_cfg a = b.
Proof.
  intros PI (SH & _ & FI) C. cbn [asset_shape] in SH. destruct SH as (A0 & A1 & A2 & A3 & SH).
  assert (array_main b A0 A1 A2 a) as M0. { eapply create_main; [|exact SH|exact C]. unfold filter_objective_variables. rewrite PI. cbn [rbind]. change (ev_name b) with (asset_name (AEVs b)). rewrite (FI KEv) by discriminate. destruct SH as (-> & _). now rewrite ev_only. }
  apply M0.
Qed.
Definition shaped (iv : interval_vars) : Prop := forall t row, nth_error iv t = Some row -> row_shape c assets fl t row.
Lemma shaped_owns iv t row a : shaped iv -> nth_error iv t = Some row -> In a assets -> exists xs, owns a t f fl row xs.
Proof. intros SH. destruct RD as (_ & _ & ND & _). exact (row_owns c assets fl iv ND SH t row a). Qed.
Lemma shaped_last iv row : shaped (iv ++ [row])%list -> nth_error (iv ++ [row]) (List.length iv) = Some row.
Proof. intros _. rewrite nth_error_app2 by lia. now rewrite Nat.sub_diag. Qed.
Lemma found_one jv j a t xs row k x : py_index jv j = Ok row -> owns a t f fl row xs -> k <> KSite -> xs = [x] -> kind_of x = k ->
  filter_objective_variables jv j (Some k) (Some (asset_name a)) = Ok [x].
Proof.
  intros PI (_ & _ & FI) NK -> K. unfold filter_objective_variables. rewrite PI. cbn [rbind]. rewrite (FI k NK). cbn [filter]. rewrite K.
  assert (kind_eqb k k = true) as -> by (destruct k; reflexivity). reflexivity.
Qed.
Lemma smooth_found {B} (r : res (list oneint)) x (m : oneint -> M B) P : r = Ok [x] -> smooth (m x) P -> smooth (found <- lift r ;; y <- lift (hd_res found) ;; m y) P.
Proof.
  intros -> H. eapply (smooth_bind _ _ (fun l => l = [x])); [now eapply smooth_lift|]. intros ? ->. eapply (smooth_bind _ _ (fun y => y = x)); [|intros ? ->; exact H].
  eapply smooth_lift; [unfold hd_res; apply py_index_first|reflexivity].
Qed.
Lemma smooth_socs l : forall l', List.length l = List.length l' -> smooth (connect_socs l l') any.
Proof.
  induction l as [|x l IH]; intros [|y l'] L; try discriminate; cbn [connect_socs]; [apply smooth_ret; exact I|]. injection L as L.
  eapply (smooth_bind _ _ any); [|intros _ _; now apply IH]. destruct x, y; smooth.
Qed.

Lemma smooth_within a iv row : In a assets -> shaped (iv ++ [row])%list -> (List.length iv < n)%nat ->
  smooth (asset_constrain_within a (iv ++ [row])%list (List.length iv) f fl) any.
Proof.
  intros Ia SH Hi. pose proof (shaped_last _ _ SH) as NL. destruct (shaped_owns _ _ _ _ SH NL Ia) as (xs & OW).
  assert (py_index (iv ++ [row]) (Z.of_nat (List.length iv)) = Ok row) as PN by (rewrite py_index_nat, NL; reflexivity).
  assert (py_index (iv ++ [row]) (-1) = Ok row) as PL by apply py_index_last.
  pose proof OW as (AS & _ & _).
  destruct a as [b|b|b|b|b|b|nm|nm]; cbn [asset_constrain_within]; try (cbn [asset_shape] in AS; destruct AS as (r & E & S)).
  - unfold battery_constrain_within. eapply smooth_found; [exact (found_one _ _ _ _ _ _ KBattery _ PL OW ltac:(discriminate) E eq_refl)|]. cbn [as_battery].
    eapply (smooth_bind _ _ any); [eapply smooth_lift; [reflexivity|exact I]|intros ? _].
    eapply (smooth_bind _ _ any); [unfold constrain_only_charge_or_discharge; smooth|intros _ _]. eapply (smooth_bind _ _ any); [unfold constrain_battery_electricity_balance; smooth|intros _ _].
    unfold constrain_connection_batteries_between_intervals, filter_all_intervals. rewrite map_length.
    destruct (Nat.ltb_spec (List.length (iv ++ [row])) 2) as [L|L]; [apply smooth_ret; exact I|]. rewrite app_length in L. cbn [List.length] in L.
    destruct (exists_last (l := iv)) as (iv0 & row0 & ->); [intros ->; cbn in L; lia|].
    rewrite !map_app. cbn [map]. rewrite py_index_m2, py_index_last. 
    assert (nth_error ((iv0 ++ [row0]) ++ [row]) (List.length iv0) = Some row0) as N0 by (rewrite nth_error_app1 by (rewrite app_length; cbn; lia); rewrite nth_error_app2 by lia; now rewrite Nat.sub_diag).
    destruct (shaped_owns _ _ _ _ SH N0 Ia) as (xs0 & OW0). pose proof OW0 as ((r0 & E0 & _) & _ & F0). destruct OW as (_ & _ & F1).
    change (b_name b) with (asset_name (ABattery b)). rewrite (F0 KBattery), (F1 KBattery), E, E0 by discriminate. cbn [filter kind_of kind_eqb].
    eapply (smooth_bind _ _ (fun l => l = [OIBattery r0])); [eapply smooth_lift; reflexivity|intros ? ->]. eapply (smooth_bind _ _ (fun l => l = [OIBattery r])); [eapply smooth_lift; reflexivity|intros ? ->].
    cbn [connect_batteries as_battery]. eapply (smooth_bind _ _ any); [eapply smooth_lift; [reflexivity|exact I]|intros ? _]. eapply (smooth_bind _ _ any); [eapply smooth_lift; [reflexivity|exact I]|intros ? _]. smooth.
  - unfold boiler_constrain_within. eapply smooth_found; [exact (found_one _ _ _ _ _ _ KBoiler _ PL OW ltac:(discriminate) E eq_refl)|]. cbv beta iota.
    pose proof (ready_at _ Ia) as R. cbn in R. destruct S as (-> & _). destruct (Qeq_bool (bo_efficiency_pct b) 0) eqn:Z; [apply Qeq_bool_iff in Z; contradiction|]. smooth.
  - unfold chp_constrain_within. eapply smooth_found; [exact (found_one _ _ _ _ _ _ KCHP _ PN OW ltac:(discriminate) E eq_refl)|]. cbv beta iota. smooth.
  - unfold evs_constrain_within. destruct (create_ok _ _ _ _ _ false _ Ia PN OW) as (a1 & C1). destruct (create_ok _ _ _ _ _ true _ Ia PN OW) as (a2 & C2). rewrite C1, C2.
    eapply (smooth_bind _ _ (fun x => x = a1)); [eapply smooth_lift; reflexivity|intros ? ->]. eapply (smooth_bind _ _ any); [now apply smooth_min_max|intros _ _].
    eapply (smooth_bind _ _ (fun x => x = a2)); [eapply smooth_lift; reflexivity|intros ? ->]. eapply (smooth_bind _ _ any); [now apply smooth_min_max|intros _ _].
    eapply (smooth_bind _ _ any). { unfold constrain_single_charger_charge_event. eapply (smooth_bind _ _ any); [|intros _ _]; apply smooth_forM_; intros; smooth. } intros _ _.
    eapply (smooth_bind _ _ any). { unfold constrain_charge_event_electricity_balance, constrain_losses. apply smooth_forM_. intros ee _. cbv zeta. eapply (smooth_bind _ _ any); [smooth|intros _ _]. eapply (smooth_bind _ _ any); [|intros _ _]; apply smooth_forM_; intros; smooth. } intros _ _.
    destruct (List.length iv) as [|j] eqn:LJ; [apply smooth_ret; exact I|].
    destruct (nth_error_lt (iv ++ [row]) j) as (row0 & N0); [rewrite app_length; lia|]. destruct (shaped_owns _ _ _ _ SH N0 Ia) as (xs0 & OW0).
    assert (py_index (iv ++ [row]) (Z.of_nat j) = Ok row0) as P0 by (rewrite py_index_nat, N0; reflexivity).
    destruct (create_ok _ _ _ _ _ false _ Ia P0 OW0) as (a0 & C0). rewrite C0. eapply (smooth_bind _ _ (fun x => x = a0)); [eapply smooth_lift; reflexivity|intros ? ->].
    unfold constrain_connection_charge_events. apply smooth_socs. rewrite !map_length, !seq_length.
    rewrite (create_cfg _ _ _ _ _ _ _ P0 OW0 C0), (create_cfg _ _ _ _ _ _ _ PN OW C1). reflexivity.
  - unfold hp_constrain_within. eapply smooth_found; [exact (found_one _ _ _ _ _ _ KHeatPump _ PN OW ltac:(discriminate) E eq_refl)|]. cbv beta iota. smooth.
  - apply smooth_ret. exact I.
  - apply smooth_ret. exact I.
  - unfold valve_constrain_within. eapply smooth_found; [exact (found_one _ _ _ _ _ _ KValve _ PL OW ltac:(discriminate) E eq_refl)|]. cbv beta iota. smooth.
Qed.

Lemma smooth_after a iv : In a assets -> shaped iv -> iv <> [] -> smooth (asset_constrain_after a iv) any.
Proof.
  intros Ia SH NE. destruct (ends_split iv NE) as (x0 & x1 & k0 & k1 & E0 & E1 & N0 & N1).
  assert (py_index iv 0 = Ok x0) as P0 by (rewrite E0; apply py_index_first).
  assert (py_index iv (-1) = Ok x1) as P1 by (rewrite E1; apply py_index_last).
  destruct (shaped_owns _ _ _ _ SH N0 Ia) as (xs0 & OW0). destruct (shaped_owns _ _ _ _ SH N1 Ia) as (xs1 & OW1).
  destruct a as [b|b|b|b|b|b|nm|nm]; cbn [asset_constrain_after]; try (apply smooth_ret; exact I).
  - pose proof OW0 as ((r0 & EE0 & _) & _). pose proof OW1 as ((r1 & EE1 & _) & _). unfold battery_constrain_after.
    eapply smooth_found; [exact (found_one _ _ _ _ _ _ KBattery _ P0 OW0 ltac:(discriminate) EE0 eq_refl)|]. 
    eapply (smooth_found _ _ (fun x1 => _)); [exact (found_one _ _ _ _ _ _ KBattery _ P1 OW1 ltac:(discriminate) EE1 eq_refl)|]. cbn [as_battery].
    eapply (smooth_bind _ _ any); [eapply smooth_lift; [reflexivity|exact I]|intros ? _]. eapply (smooth_bind _ _ any); [eapply smooth_lift; [reflexivity|exact I]|intros ? _]. smooth.
  - unfold evs_constrain_after. destruct (create_ok _ _ _ _ _ false _ Ia P0 OW0) as (a0 & C0). destruct (create_ok _ _ _ _ _ false _ Ia P1 OW1) as (a1 & C1). rewrite C0, C1.
    eapply (smooth_bind _ _ (fun x => x = a0)); [eapply smooth_lift; reflexivity|intros ? ->]. eapply (smooth_bind _ _ (fun x => x = a1)); [eapply smooth_lift; reflexivity|intros ? ->].
    apply smooth_forM_. intros [e ec] Ie. apply enumerate_in in Ie. assert (e < n_events b)%nat as He by (apply nth_error_Some; congruence). cbn [fst snd].
    pose proof OW0 as (SH0 & _ & F0). pose proof OW1 as (SH1 & _ & F1). cbn [asset_shape] in SH0, SH1. destruct SH0 as (A0 & A1 & A2 & A3 & SH0). destruct SH1 as (B0 & B1 & B2 & B3 & SH1).
    assert (array_main b A0 A1 A2 a0) as M0. { eapply create_main; [|exact SH0|exact C0]. unfold filter_objective_variables. rewrite P0. cbn [rbind]. change (ev_name b) with (asset_name (AEVs b)). rewrite (F0 KEv) by discriminate. destruct SH0 as (-> & _). now rewrite ev_only. }
    assert (array_main b B0 B1 B2 a1) as M1. { eapply create_main; [|exact SH1|exact C1]. unfold filter_objective_variables. rewrite P1. cbn [rbind]. change (ev_name b) with (asset_name (AEVs b)). rewrite (F1 KEv) by discriminate. destruct SH1 as (-> & _). now rewrite ev_only. }
    destruct M0 as (_ & _ & _ & _ & M0). destruct M1 as (_ & _ & _ & _ & M1). destruct (M0 e He) as [-> _]. destruct (M1 e He) as [_ ->]. cbn [soc_equals]. smooth.
Qed.
Definition fresh_names (i : nat) (o : opt) : Prop := forall j, (i <= j)%nat -> ~ In (balance_name j) (names_of o).
Lemma interval_ok iv o : shaped iv -> (List.length iv < n)%nat -> fresh_names (List.length iv) o ->
  exists row o', site_interval c assets fl iv (List.length iv) o = Ok ((iv ++ [row])%list, o') /\ shaped (iv ++ [row])%list /\ fresh_names (S (List.length iv)) o'.
Proof.
  intros SH Hi FR. set (i := List.length iv) in *.
  assert (smooth (s <- site_one_interval c i ;; xs <- forM assets (fun a => asset_one_interval a i f fl) ;; ret (s :: List.concat xs)%list) any) as SM.
  { eapply (smooth_bind _ _ any); [unfold site_one_interval; smooth|intros ? _]. eapply (smooth_bind _ _ any); [|intros ? _; apply smooth_ret; exact I]. apply smooth_forM. intros a Ia. now apply smooth_one. }
  destruct (SM o) as (row & o1 & E1 & N1 & _). pose proof (row_alloc c assets fl i (natural [] (d_of (fun _ => 0) [])) _ _ _ E1) as (_ & _ & _ & RS & _).
  assert (shaped (iv ++ [row])%list) as SH'.
  { intros t r E. destruct (Nat.lt_ge_cases t i) as [L|L]; [rewrite nth_error_app1 in E by exact L; now apply SH|]. rewrite nth_error_app2 in E by exact L.
    destruct (t - List.length iv)%nat as [|k] eqn:D; [|destruct k; discriminate]. injection E as <-. assert (t = i) as -> by (unfold i in *; lia). exact RS. }
  pose proof RS as (r & xss & -> & SR & _).
  destruct (site_within iv r (List.concat xss) i Hi ltac:(apply SR) o1) as (o2 & E2 & N2); [intros j Hj; rewrite N1; now apply FR|].
  assert (smooth (forM_ assets (fun a => asset_constrain_within a (iv ++ [OISite r :: List.concat xss])%list i f fl)) any) as SW by (apply smooth_forM_; intros a Ia; now apply smooth_within).
  destruct (SW o2) as ([] & o3 & E3 & N3 & _).
  exists (OISite r :: List.concat xss)%list, o3. splits; auto.
  - unfold site_interval. unfold bind in E1 |- *. destruct (site_one_interval c i o) as [[s0 o0]|]; [|discriminate]. destruct (forM assets _ o0) as [[ys o0']|]; [|discriminate]. unfold ret in E1 |- *. injection E1 as -> -> ->. rewrite E2, E3. reflexivity.
  - intros j Hj. rewrite N3, N2, N1. intros X. apply in_app_iff in X. destruct X as [X|[X|[]]]; [apply (FR j); [lia|exact X]|]. apply balance_name_inj in X. lia.
Qed.
Lemma intervals_ok k : forall iv o, shaped iv -> (List.length iv + k = n)%nat -> fresh_names (List.length iv) o ->
  exists iv' o', site_intervals c assets fl iv (seq (List.length iv) k) o = Ok (iv', o') /\ shaped iv' /\ List.length iv' = n.
Proof.
  induction k as [|k IH]; intros iv o SH L FR; cbn [seq site_intervals].
  - exists iv, o. splits; auto. lia.
  - destruct (interval_ok iv o SH ltac:(lia) FR) as (row & o1 & E1 & SH1 & FR1). unfold bind. rewrite E1.
    assert (List.length (iv ++ [row]) = S (List.length iv)) as L1 by (rewrite app_length; cbn; lia). rewrite <- L1 in FR1 |- *. apply IH; auto. lia.
Qed.
Theorem base_builds base : exists iv o, build_base c assets fl (new_optimizer base) = Ok (iv, o).
Proof.
  pose proof RD as (Hn & _ & ND & _). unfold build_base. unfold bind at 1. rewrite (proj2 (nodup_str_iff _) ND). cbn [massert ret].
  destruct (intervals_ok n [] (new_optimizer base)) as (iv & o1 & E1 & SH & L); [intros [|t] row E; discriminate|reflexivity|intros j _ []|].
  cbn [List.length] in E1. unfold bind at 1. unfold n_intervals in E1. unfold ret at 1. rewrite E1.
  assert (smooth (forM_ assets (fun a => asset_constrain_after a iv)) any) as S.
  { apply smooth_forM_. intros a Ia. apply smooth_after; auto. intros ->. cbn in L. lia. }
  destruct (S o1) as ([] & o2 & E2 & _). unfold bind. rewrite E2. unfold ret. eauto.
Qed.
End Ready.

(** ** the price and the carbon objective *)
Lemma rmap_total {A B} (F : A -> res B) l : (forall x, In x l -> exists y, F x = Ok y) -> exists ys, rmap F l = Ok ys.
Proof.
  induction l as [|x l IH]; intros H; [exists []; reflexivity|]. destruct (H x (or_introl eq_refl)) as (y & E). destruct IH as (ys & E2); [intros; apply H; now right|].
  exists (y :: ys). cbn [rmap]. rewrite E. cbn [rbind]. rewrite E2. reflexivity.
Qed.
Lemma fmul_total f q : f <> FNone -> exists e, fmul f q = Ok e.
Proof. destruct f; cbn; eauto. congruence. Qed.
Lemma fmul_sum_total fs q : (forall f, In f fs -> f <> FNone) -> exists e, fmul_sum fs q = Ok e.
Proof. intros H. unfold fmul_sum. destruct (rmap_total (fun f => fmul f q) fs) as (es & ->); [intros f If; apply fmul_total; auto|]. cbn [rbind]. eauto. Qed.
Lemma at_interval_total k name iv t row : nth_error iv t = Some row -> at_interval (filter_all_intervals iv k name) t = Ok (filter (matches k name) row).
Proof. intros E. unfold at_interval. rewrite py_index_nat. unfold filter_all_intervals. now rewrite nth_error_map, E. Qed.

Section Objective.
Context (c : site_cfg) (assets : list asset) (fl : flags) (RD : site_ready c assets).
Lemma spill_not_none t row x : row_shape c assets fl t row -> In (OIEvSpill x) row -> eoi_charge x <> FNone /\ eoi_discharge x <> FNone.
Proof.
  intros (r & xss & -> & _ & F) [I|I]; [discriminate|]. apply in_concat in I. destruct I as (xs & I1 & I2).
  assert (exists a, asset_shape a t (sc_freq c) fl xs) as (a & SH). { clear -F I1. induction F as [|a ys l l' Sh F IH]; [destruct I1|]. destruct I1 as [->|I1]; eauto. }
  destruct a as [b|b|b|b|b|b|nm|nm]; cbn [asset_shape] in SH; try (destruct SH as (y & -> & _); destruct I2 as [I2|[]]; discriminate).
  destruct SH as (S0 & S1 & G & Sp & -> & _ & _ & SS). rewrite in_app_iff, !in_map_iff in I2. destruct I2 as [(y & ? & _)|(y & [= ->] & Iy)]; [discriminate|].
  apply in_grid in Iy. destruct Iy as (e & k & He & Hk & ->). destruct (nth_error_lt _ _ He) as (ec & Ee). destruct (nth_error_lt _ _ Hk) as (cc & Ek).
  destruct (SS e ec k cc Ee Ek) as (_ & _ & _ & _ & _ & _ & CS & DS & _). cbn [andb discharge_shape] in DS. split.
  - destruct CS as [(v & b0 & -> & _)|(-> & _)]; discriminate.
  - destruct DS as (-> & _). discriminate.
Qed.
Lemma matches_in k row x : In x (filter (matches (Some k) None) row) -> In x row /\ kind_of x = k.
Proof. intros I. apply filter_In in I. destruct I as [I M]. split; auto. unfold matches in M. rewrite andb_true_r in M. now apply kind_eqb_iff. Qed.
Lemma matches_site row x : In x (filter (matches (Some KSite) (Some "site"%string)) row) -> exists r, x = OISite r.
Proof. intros I. apply filter_In in I. destruct I as [I M]. unfold matches in M. apply andb_true_iff in M. destruct M as [M _]. destruct x; try discriminate. eauto. Qed.
Lemma objective_builds s iv lo hi cs o : s = "price"%string \/ s = "carbon"%string -> program c assets fl iv lo hi cs ->
  exists e, get_objective (ObjName s) iv (sc_idata c) o = Ok (e, o).
Proof.
  intros Hs P. pose proof RD as (_ & (L1 & L2 & L3 & L4 & _) & _).
  assert (forall (l : list Q) i, List.length l = id_n (sc_idata c) -> (i < n_intervals c)%nat -> exists q, nth_res l i = Ok q) as G.
  { intros l i L Hi. unfold n_intervals in Hi. destruct (nth_error_lt l i ltac:(lia)) as (q & E). exists q. unfold nth_res. now rewrite E. }
  assert (forall i, (i < n_intervals c)%nat -> exists row, nth_error iv i = Some row /\ row_shape c assets fl i row) as RW.
  { intros i Hi. destruct (nth_error_lt iv i) as (row & E); [rewrite (pr_len _ _ _ _ _ _ _ P); exact Hi|]. exists row. split; auto. exact (pr_shape _ _ _ _ _ _ _ P i row E). }
  assert (forall i x, (i < n_intervals c)%nat -> forall row, nth_error iv i = Some row -> In x (filter (matches (Some KEvSpill) None) row) ->
     electric_generation_mwh x = FInt 0 /\ high_temperature_generation_mwh x = FInt 0 /\ electric_load_mwh x = FInt 0 /\ electric_charge_mwh x <> FNone /\ electric_discharge_mwh x <> FNone) as EVS.
  { intros i x Hi row E I. apply matches_in in I. destruct I as [I K]. destruct x as [| | | | |r| | | |]; try discriminate. cbn [electric_generation_mwh high_temperature_generation_mwh electric_load_mwh electric_charge_mwh electric_discharge_mwh].
    destruct (RW i Hi) as (row' & E' & SH). assert (row' = row) as -> by congruence. destruct (spill_not_none i row r SH I). splits; auto. }
  assert (exists e, price_objective iv (sc_idata c) = Ok e) as (ep & EP).
  { unfold price_objective. destruct (rmap_total (price_at iv (sc_idata c)) (seq 0 (id_n (sc_idata c)))) as (ls & ->); [|cbn [rbind]; eauto].
    intros i Ii. apply in_seq in Ii. assert (i < n_intervals c)%nat as Hi by (unfold n_intervals; lia). destruct (RW i Hi) as (row & E & SH). unfold price_at. rewrite !(at_interval_total _ _ _ _ _ E). cbn [rbind].
    destruct (G _ i L1 Hi) as (q1 & Q1). destruct (G _ i L2 Hi) as (q2 & Q2). destruct (G _ i L4 Hi) as (q4 & Q4).
    edestruct (rmap_total (price_site (sc_idata c) i)) as (l1 & ->). { intros x I. apply matches_site in I. destruct I as (r & ->). unfold price_site. rewrite Q1, Q2. cbn [rbind]. eauto. }
    edestruct (rmap_total price_spill (filter (matches (Some KSpill) None) row)) as (l2 & ->). { intros x I. apply matches_in in I. destruct I as [_ K]. destruct x; try discriminate. apply fmul_sum_total. cbn [In]. intros g Hg. repeat (destruct Hg as [<-|Hg]; [discriminate|]). destruct Hg. }
    edestruct (rmap_total price_spill_ev (filter (matches (Some KEvSpill) None) row)) as (l3 & ->). { intros x I. destruct (EVS i x Hi row E I) as (_ & _ & _ & A & B). apply fmul_sum_total. intros g [<-|[<-|[]]]; auto. }
    edestruct (rmap_total (price_gas (sc_idata c) i) (filter (matches (Some KCHP) None) row)) as (l4 & ->). { intros x I. apply matches_in in I. destruct I as [_ K]. destruct x; try discriminate. unfold price_gas. rewrite Q4. cbn [rbind gas_consumption_mwh]. apply fmul_total. discriminate. }
    edestruct (rmap_total (price_gas (sc_idata c) i) (filter (matches (Some KBoiler) None) row)) as (l5 & ->). { intros x I. apply matches_in in I. destruct I as [_ K]. destruct x; try discriminate. unfold price_gas. rewrite Q4. cbn [rbind gas_consumption_mwh]. apply fmul_total. discriminate. }
    cbn [rbind]. eauto. }
  assert (exists e, carbon_objective iv (sc_idata c) = Ok e) as (ec & EC).
  { unfold carbon_objective. destruct (rmap_total (carbon_at iv (sc_idata c)) (seq 0 (id_n (sc_idata c)))) as (ls & ->); [|cbn [rbind]; eauto].
    intros i Ii. apply in_seq in Ii. assert (i < n_intervals c)%nat as Hi by (unfold n_intervals; lia). destruct (RW i Hi) as (row & E & SH). unfold carbon_at. rewrite !(at_interval_total _ _ _ _ _ E). cbn [rbind].
    destruct (G _ i L3 Hi) as (q1 & Q1).
    edestruct (rmap_total (carbon_site (sc_idata c) i)) as (l1 & ->). { intros x I. apply matches_site in I. destruct I as (r & ->). unfold carbon_site. rewrite Q1. cbn [rbind]. eauto. }
    edestruct (rmap_total carbon_spill (filter (matches (Some KSpill) None) row)) as (l2 & ->). { intros x I. apply matches_in in I. destruct I as [_ K]. destruct x; try discriminate. apply fmul_sum_total. cbn [In]. intros g Hg. repeat (destruct Hg as [<-|Hg]; [discriminate|]). destruct Hg. }
    edestruct (rmap_total carbon_spill (filter (matches (Some KEvSpill) None) row)) as (l3 & ->). { intros x I. destruct (EVS i x Hi row E I) as (A1 & A2 & A3 & A & B). apply fmul_sum_total. rewrite A1, A2, A3. intros g [<-|[<-|[<-|[<-|[<-|[]]]]]]; auto; discriminate. }
    edestruct (rmap_total carbon_gas (filter (matches (Some KCHP) None) row)) as (l4 & ->). { intros x I. apply matches_in in I. destruct I as [_ K]. destruct x; try discriminate. unfold carbon_gas. cbn [gas_consumption_mwh]. apply fmul_total. discriminate. }
    edestruct (rmap_total carbon_gas (filter (matches (Some KBoiler) None) row)) as (l5 & ->). { intros x I. apply matches_in in I. destruct I as [_ K]. destruct x; try discriminate. unfold carbon_gas. cbn [gas_consumption_mwh]. apply fmul_total. discriminate. }
    cbn [rbind]. eauto. }
  destruct Hs as [->| ->]; cbn [get_objective String.eqb Ascii.eqb Bool.eqb]; [rewrite EP|rewrite EC]; cbn [lift]; eauto.
Qed.
Theorem program_builds base s : s = "price"%string \/ s = "carbon"%string -> exists iv o, build_program c assets [] (ObjName s) fl (new_optimizer base) = Ok (iv, o).
Proof.
  intros Hs. destruct (base_builds c assets fl RD base) as (iv & o & B). destruct (base_program _ _ _ _ _ _ B) as (cs & P & _).
  destruct (objective_builds s iv _ _ _ o Hs P) as (e & E). unfold build_program, bind. rewrite B. cbn [forM_ ret]. unfold ret at 1. rewrite E. cbn. eauto.
Qed.
End Objective.
