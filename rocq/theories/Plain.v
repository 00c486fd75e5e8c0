(** * Plain: sites of constructed assets with plain names are ordinary sites (proofs) *)
From Verif Require Import Base Pulp Params Optimizer Types EVs Emit Prim Spec SpecReport SpecRun SpecNames SpecColumns SemSite SemObj IntervalData Ctors SpecInput PropInput PropCtors Rows Builds Totals2 Columns PropColumns SpecPossible.
Open Scope Q_scope.
Open Scope string_scope.

(** ** names of columns as pairs *)
Definition col_of (p : string * string) : string := column (fst p) (snd p).
Definition attrs (a : asset) : list string :=
  match a with
  | ABattery _ => ["electric_charge_mwh"; "electric_charge_binary"; "electric_discharge_mwh"; "electric_discharge_binary"; "electric_loss_mwh"; "electric_initial_charge_mwh"; "electric_final_charge_mwh"]
  | ABoiler _ => ["high_temperature_generation_mwh"; "gas_consumption_mwh"]
  | ACHP _ => ["electric_generation_mwh"; "gas_consumption_mwh"; "high_temperature_generation_mwh"; "low_temperature_generation_mwh"]
  | AEVs _ => []
  | AHeatPump _ => ["electric_load_mwh"; "low_temperature_load_mwh"; "high_temperature_generation_mwh"]
  | ARenewable _ => ["electric_generation_mwh"]
  | ASpill _ => ["electric_generation_mwh"; "electric_load_mwh"; "high_temperature_generation_mwh"; "low_temperature_generation_mwh"; "high_temperature_load_mwh"; "low_temperature_load_mwh"; "gas_consumption_mwh"]
  | AValve _ => ["high_temperature_load_mwh"; "low_temperature_generation_mwh"]
  end.
Definition charger_attrs : list string := ["electric_charge_mwh"; "electric_charge_binary"; "electric_discharge_mwh"; "electric_discharge_binary"; "electric_loss_mwh"].
Definition event_attrs : list string := ["electric_charge_mwh"; "electric_discharge_mwh"; "electric_loss_mwh"].
Definition under (p : string) (l : list string) : list (string * string) := map (fun a => (p, a)) l.
Definition ev_pairs (c : evs_cfg) : list (string * string) :=
  (flat_map (fun kc : nat * charger_cfg => under (column (ev_name c) (cg_name (snd kc))) charger_attrs) (enumerate (ev_chargers c))
   ++ flat_map (fun ee : nat * charge_event_cfg => under (column (ev_name c) (ce_name (snd ee))) event_attrs) (enumerate (ev_event_cfgs c))
   ++ map (fun e => (column (column (ev_name c) "charge-event") (show e), "initial_soc_mwh")) (seq 0 (List.length (ev_event_cfgs c)))
   ++ map (fun e => (column (column (ev_name c) "charge-event") (show e), "final_soc_mwh")) (seq 0 (List.length (ev_event_cfgs c)))
   ++ flat_map (fun cc => under (column (ev_name c) (cg_name cc)) charger_attrs) (ev_spill_chargers c))%list.
Definition pairs (a : asset) : list (string * string) := match a with AEVs c => ev_pairs c | _ => under (asset_name a) (attrs a) end.

Lemma fst_flat {A} (g : A -> list (string * option Q)) (h : A -> list (string * string)) l : (forall x, map fst (g x) = map col_of (h x)) ->
  map fst (flat_map g l) = map col_of (flat_map h l).
Proof. intros H. induction l as [|x l IH]; [reflexivity|]. cbn [flat_map]. now rewrite !map_app, H, IH. Qed.
Lemma pairs_cols d t a : map fst (asset_cells d t a) = map col_of (pairs a).
Proof.
  destruct a as [b|b|b|c|b|b|s|s]; try reflexivity. cbn [asset_cells pairs]. unfold ev_main_cells, ev_spill_columns, ev_pairs, ev_soc_report. rewrite !map_app, <- !app_assoc.
  f_equal; [apply fst_flat; intros x; reflexivity|]. f_equal; [apply fst_flat; intros x; reflexivity|]. rewrite !map_map. f_equal. f_equal.
  apply fst_flat. intros x. reflexivity.
Qed.
Definition dashless (l : list string) : bool := forallb (fun a => negb (mem "-" a)) l.
Lemma dashless_in l a : dashless l = true -> In a l -> mem "-" a = false.
Proof. intros H J. unfold dashless in H. rewrite forallb_forall in H. apply H in J. now apply negb_true_iff in J. Qed.
Definition all_attrs : list string :=
  ["electric_charge_mwh"; "electric_charge_binary"; "electric_discharge_mwh"; "electric_discharge_binary"; "electric_loss_mwh"; "electric_initial_charge_mwh"; "electric_final_charge_mwh";
   "high_temperature_generation_mwh"; "gas_consumption_mwh"; "electric_generation_mwh"; "low_temperature_generation_mwh"; "electric_load_mwh"; "low_temperature_load_mwh"; "high_temperature_load_mwh"; "initial_soc_mwh"; "final_soc_mwh"].
Lemma sub_attrs l a : forallb (fun a => existsb (String.eqb a) all_attrs) l = true -> In a l -> In a all_attrs.
Proof. intros H J. rewrite forallb_forall in H. apply H, existsb_exists in J. destruct J as (y & J & E). apply String.eqb_eq in E. now subst. Qed.
Lemma under_in p l x : In x (under p l) -> fst x = p /\ In (snd x) l.
Proof. unfold under. rewrite in_map_iff. intros (a & <- & J). auto. Qed.
Lemma ev_pairs_in c x : In x (ev_pairs c) ->
  ((exists k cc, nth_error (ev_chargers c) k = Some cc /\ fst x = column (ev_name c) (cg_name cc)) \/
   (exists e ec, nth_error (ev_event_cfgs c) e = Some ec /\ fst x = column (ev_name c) (ce_name ec)) \/
   (exists e, fst x = column (column (ev_name c) "charge-event") (show e)) \/
   (exists cc, In cc (ev_spill_chargers c) /\ fst x = column (ev_name c) (cg_name cc))) /\ In (snd x) all_attrs.
Proof.
  unfold ev_pairs. rewrite !in_app_iff, !in_flat_map, !in_map_iff. intros [((k & cc) & J & K)|[((e & ec) & J & K)|[(e & <- & J)|[(e & <- & J)|(cc & J & K)]]]].
  - apply enum_in in J. destruct J as (j & -> & J). apply under_in in K. destruct K as [K L]. split; [left; eauto|]. eapply sub_attrs; [|exact L]. reflexivity.
  - apply enum_in in J. destruct J as (j & -> & J). apply under_in in K. destruct K as [K L]. split; [right; left; eauto|]. eapply sub_attrs; [|exact L]. reflexivity.
  - split; [right; right; left; exists e; reflexivity|]. cbn [snd]. eapply (sub_attrs ["initial_soc_mwh"]); [reflexivity|now left].
  - split; [right; right; left; exists e; reflexivity|]. cbn [snd]. eapply (sub_attrs ["final_soc_mwh"]); [reflexivity|now left].
  - apply under_in in K. destruct K as [K L]. split; [right; right; right; eauto|]. eapply sub_attrs; [|exact L]. reflexivity.
Qed.
Lemma pairs_attr a x : In x (pairs a) -> In (snd x) all_attrs.
Proof.
  destruct a as [b|b|b|c|b|b|s|s]; cbn [pairs]; try (intros J; apply under_in in J; destruct J as [_ J]; eapply sub_attrs; [|exact J]; reflexivity).
  intros J. now apply ev_pairs_in in J.
Qed.
Lemma all_dashless a : In a all_attrs -> mem "-" a = false.
Proof. apply dashless_in. reflexivity. Qed.
Lemma col_inj n a n' a' : mem "-" a = false -> mem "-" a' = false -> column n a = column n' a' -> n = n' /\ a = a'.
Proof. intros A B H. unfold column in H. apply (split_last "-" a a'); auto. Qed.
Lemma col_of_inj x y : mem "-" (snd x) = false -> mem "-" (snd y) = false -> col_of x = col_of y -> x = y.
Proof. intros A B H. unfold col_of in H. destruct (col_inj _ _ _ _ A B H) as [E F]. destruct x, y. cbn in *. congruence. Qed.

(** ** the pairs of one asset are different *)
Lemma under_nodup p l : nodup_str l = true -> NoDup (under p l).
Proof. intros H. apply nodup_str_iff in H. unfold under. apply nodup_map_on; auto. congruence. Qed.
Lemma under_charger p : NoDup (under p charger_attrs).
Proof. now apply under_nodup. Qed.
Lemma under_event p : NoDup (under p event_attrs).
Proof. now apply under_nodup. Qed.
Lemma charger_names rows powers caps e td name c k cc : evs_init rows powers caps e td name = Ok c -> nth_error (ev_chargers c) k = Some cc -> cg_name cc = "charger-" ++ show k.
Proof.
  intros E. unfold evs_init in E. destruct (negb _); [discriminate|]. destruct (pyd_assert (contains "evs" name)); [|discriminate]. cbn [rbind] in E.
  destruct rows; [discriminate|]. destruct (pyd_assert _) in E; [|discriminate]. cbn [rbind] in E. injection E as <-. cbn [ev_chargers].
  rewrite nth_error_map, enum_nth. destruct (nth_error powers k); [|discriminate]. intros [= <-]. reflexivity.
Qed.
Lemma event_names rows powers caps e td name c k ec : evs_init rows powers caps e td name = Ok c -> nth_error (ev_event_cfgs c) k = Some ec -> ce_name ec = "charge-event-" ++ show k.
Proof.
  intros E. unfold evs_init in E. destruct (negb _); [discriminate|]. destruct (pyd_assert (contains "evs" name)); [|discriminate]. cbn [rbind] in E.
  destruct rows; [discriminate|]. destruct (pyd_assert _) in E; [|discriminate]. cbn [rbind] in E. injection E as <-. cbn [ev_event_cfgs].
  rewrite nth_error_map, enum_nth. destruct (nth_error caps k); [|discriminate]. intros [= <-]. reflexivity.
Qed.
Lemma spill_names rows powers caps e td name c : evs_init rows powers caps e td name = Ok c -> exists p q, ev_spill_chargers c = [mkChargerCfg ("charger-spill-" ++ name) p q].
Proof.
  intros E. unfold evs_init in E. destruct (negb _); [discriminate|]. destruct (pyd_assert (contains "evs" name)); [|discriminate]. cbn [rbind] in E.
  destruct rows; [discriminate|]. destruct (pyd_assert _) in E; [|discriminate]. cbn [rbind] in E. injection E as <-. cbn [ev_spill_chargers]. eauto.
Qed.
Lemma show_dashless k : mem "-" (show k) = false.
Proof. now apply mem_show. Qed.
Section Evs.
Variables (rows : list (list Q)) (powers caps : list Q) (e td : Q) (c : evs_cfg).
Hypothesis MADE : evs_init rows powers caps e td "evs" = Ok c.
Lemma evs_name : ev_name c = "evs".
Proof. destruct (C48_evs rows powers caps e td "evs") as (_ & B). now destruct (B c MADE). Qed.
Lemma charger_col k : column "evs" ("charger-" ++ show k) = column "evs-charger" (show k).
Proof. reflexivity. Qed.
Lemma event_col k : column "evs" ("charge-event-" ++ show k) = column "evs-charge-event" (show k).
Proof. reflexivity. Qed.
Lemma ev_pairs_nodup : NoDup (ev_pairs c).
Proof.
  destruct (spill_names _ _ _ _ _ _ _ MADE) as (p & q & SP).
  unfold ev_pairs. rewrite evs_name, SP. cbn [flat_map app]. rewrite app_nil_r.
  assert (forall k cc, In (k, cc) (enumerate (ev_chargers c)) -> cg_name cc = "charger-" ++ show k) as CN.
  { intros k cc J. apply enum_in in J. destruct J as (j & -> & J). now apply (charger_names _ _ _ _ _ _ _ _ _ MADE). }
  assert (forall k ec, In (k, ec) (enumerate (ev_event_cfgs c)) -> ce_name ec = "charge-event-" ++ show k) as EN.
  { intros k ec J. apply enum_in in J. destruct J as (j & -> & J). now apply (event_names _ _ _ _ _ _ _ _ _ MADE). }
  assert (forall x, In x (flat_map (fun kc : nat * charger_cfg => under (column "evs" (cg_name (snd kc))) charger_attrs) (enumerate (ev_chargers c))) -> exists k, fst x = column "evs-charger" (show k)) as P1.
  { intros x J. apply in_flat_map in J. destruct J as ((k & cc) & J & K). apply under_in in K. destruct K as [K _]. rewrite K. cbn [snd]. rewrite (CN _ _ J), charger_col. eauto. }
  assert (forall x, In x (flat_map (fun ee : nat * charge_event_cfg => under (column "evs" (ce_name (snd ee))) event_attrs) (enumerate (ev_event_cfgs c))) -> (exists k, fst x = column "evs-charge-event" (show k)) /\ In (snd x) event_attrs) as P2.
  { intros x J. apply in_flat_map in J. destruct J as ((k & cc) & J & K). apply under_in in K. destruct K as [K L]. split; [|exact L]. rewrite K. cbn [snd]. rewrite (EN _ _ J), event_col. eauto. }
  assert (forall n n' k k', column n (show k) = column n' (show k') -> n = n' /\ k = k') as CI.
  { intros n n' k k' H. apply col_inj in H; try apply show_dashless. destruct H as [-> H]. apply show_inj in H. auto. }
  assert (forall k, column "evs-charger" (show k) <> column "evs" ("charger-spill-" ++ "evs")) as SC.
  { intros k H. change (column "evs" ("charger-spill-" ++ "evs")) with (column "evs-charger-spill" "evs") in H. apply col_inj in H; [|apply show_dashless|reflexivity]. destruct H as [H _]. discriminate. }
  assert (forall k, column "evs-charge-event" (show k) <> column "evs" ("charger-spill-" ++ "evs")) as SE.
  { intros k H. change (column "evs" ("charger-spill-" ++ "evs")) with (column "evs-charger-spill" "evs") in H. apply col_inj in H; [|apply show_dashless|reflexivity]. destruct H as [H _]. discriminate. }
  apply nodup_app. splits.
  - apply nodup_flat; [apply enum_nodup|intros; apply under_charger|]. intros (k & cc) (k' & cc') z I1 I2 J1 J2. apply under_in in J1, J2. destruct J1 as [J1 _], J2 as [J2 _].
    cbn [snd] in *. rewrite (CN _ _ I1), charger_col in J1. rewrite (CN _ _ I2), charger_col in J2. assert (k = k') as <- by (eapply (CI "evs-charger" "evs-charger"); congruence).
    apply enum_in in I1, I2. destruct I1 as (j & -> & I1), I2 as (j' & E & I2). assert (j = j') as <- by lia. congruence.
  - apply nodup_app. splits.
    + apply nodup_flat; [apply enum_nodup|intros; apply under_event|]. intros (k & cc) (k' & cc') z I1 I2 J1 J2. apply under_in in J1, J2. destruct J1 as [J1 _], J2 as [J2 _].
      cbn [snd] in *. rewrite (EN _ _ I1), event_col in J1. rewrite (EN _ _ I2), event_col in J2. assert (k = k') as <- by (eapply (CI "evs-charge-event" "evs-charge-event"); congruence).
      apply enum_in in I1, I2. destruct I1 as (j & -> & I1), I2 as (j' & E & I2). assert (j = j') as <- by lia. congruence.
    + apply nodup_app. splits.
      * apply nodup_map_on; [apply seq_NoDup|]. intros x y _ _ H. injection H as H. apply show_inj in H; auto.
      * apply nodup_app. splits.
        -- apply nodup_map_on; [apply seq_NoDup|]. intros x y _ _ H. injection H as H. apply show_inj in H; auto.
        -- apply under_charger.
        -- intros x J K. apply in_map_iff in J. destruct J as (k & <- & _). apply under_in in K. destruct K as [K _]. exact (SE k K).
      * intros x J K. apply in_map_iff in J. destruct J as (k & <- & _). apply in_app_or in K. destruct K as [K|K].
        -- apply in_map_iff in K. destruct K as (k' & K & _). injection K as K. discriminate.
        -- apply under_in in K. destruct K as [K _]. exact (SE k K).
    + intros x J K. apply P2 in J. destruct J as [(k & J) L]. rewrite !in_app_iff in K. destruct K as [K|[K|K]].
      * apply in_map_iff in K. destruct K as (k' & <- & _). cbn in L. intuition discriminate.
      * apply in_map_iff in K. destruct K as (k' & <- & _). cbn in L. intuition discriminate.
      * apply under_in in K. destruct K as [K _]. apply (SE k). rewrite <- J. exact K.
  - intros x J K. apply P1 in J. destruct J as (k & J). rewrite !in_app_iff in K. destruct K as [K|[K|[K|K]]].
    + apply P2 in K. destruct K as [(k' & K) _]. rewrite J in K. apply CI in K. destruct K as [K _]. discriminate.
    + apply in_map_iff in K. destruct K as (k' & <- & _). cbn [fst] in J. apply (CI "evs-charge-event" "evs-charger") in J. destruct J as [J _]. discriminate.
    + apply in_map_iff in K. destruct K as (k' & <- & _). cbn [fst] in J. apply (CI "evs-charge-event" "evs-charger") in J. destruct J as [J _]. discriminate.
    + apply under_in in K. destruct K as [K _]. apply (SC k). rewrite <- J. exact K.
Qed.
End Evs.

(** ** the whole table *)
Definition made_evs_named (a : asset) : Prop :=
  match a with AEVs c => exists rows powers caps e td, evs_init rows powers caps e td "evs" = Ok c | _ => True end.
Lemma sanitized_names assets : plain_names assets -> NoDup (map asset_name assets).
Proof. intros P. pose proof (pn_distinct _ P) as N. rewrite <- map_map with (f := asset_name) (g := sanitize) in N. now apply NoDup_map_inv in N. Qed.
Lemma contains_prefix w x y : contains w x = true -> contains w (x ++ y) = true.
Proof. rewrite !contains_iff. intros (b & a & ->). exists b, (a ++ y). now rewrite !app_ass. Qed.
Lemma ev_pair_evs c x : ev_name c = "evs" -> In x (ev_pairs c) -> contains "evs" (fst x) = true.
Proof.
  intros N J. apply ev_pairs_in in J. rewrite N in J. destruct J as [[(k & cc & _ & ->)|[(k & ec & _ & ->)|[(k & ->)|(cc & _ & ->)]]] _]; unfold column; apply contains_prefix; reflexivity.
Qed.
Lemma pair_prefix a x : In x (pairs a) -> (exists c, a = AEVs c) \/ fst x = asset_name a.
Proof. destruct a as [b|b|b|c|b|b|s|s]; cbn [pairs]; intros J; try (right; now apply under_in in J). left. eauto. Qed.
Lemma pairs_nodup a : made_evs_named a -> NoDup (pairs a).
Proof.
  destruct a as [b|b|b|c|b|b|s|s]; cbn [pairs made_evs_named]; intros M; try (apply under_nodup; reflexivity).
  destruct M as (rows & powers & caps & e & td & M). eapply ev_pairs_nodup; eauto.
Qed.
Lemma site_names_plain : forall a, plain_name a -> a <> "site".
Proof. intros a (_ & _ & _ & N & _). exact N. Qed.
Lemma plain_distinct c assets : plain_names assets -> Forall made_evs_named assets -> id_custom (sc_idata c) = [] -> distinct_columns c assets.
Proof.
  intros P M CU d t. unfold all_cells. rewrite map_app. pose proof (sanitized_names _ P) as ND.
  assert (map fst (flat_map (asset_cells d t) assets) = map col_of (flat_map pairs assets)) as -> by (apply fst_flat, pairs_cols).
  set (sites := map (fun n => ("site", n)) ("import_power_mwh" :: "export_power_mwh" :: map fst (id_columns (sc_idata c)))).
  assert (map fst (site_cells c d t) = map col_of sites) as ->.
  { unfold site_cells, sites. cbn [map fst]. rewrite !map_map. reflexivity. }
  rewrite <- map_app.
  assert (forall x, In x sites -> fst x = "site" /\ mem "-" (snd x) = false) as S1.
  { intros x J. unfold sites in J. apply in_map_iff in J. destruct J as (n & <- & J). split; [reflexivity|]. cbn [snd].
    unfold id_columns in J. rewrite CU in J. eapply dashless_in; [|exact J]. reflexivity. }
  assert (forall x, In x (flat_map pairs assets) -> exists a, In a assets /\ In x (pairs a) /\ mem "-" (snd x) = false) as S2.
  { intros x J. apply in_flat_map in J. destruct J as (a & Ia & J). exists a. splits; auto. now apply all_dashless, (pairs_attr a). }
  rewrite Forall_forall in M.
  assert (forall a x, In a assets -> In x (pairs a) -> fst x = asset_name a /\ contains "evs" (fst x) = false /\ fst x <> "site" \/ (exists c, a = AEVs c) /\ contains "evs" (fst x) = true) as KIND.
  { intros a x Ia J. pose proof (pn_name _ P a Ia) as PN. destruct (pair_prefix a x J) as [(v & ->)|E].
    - right. split; eauto. now apply ev_pair_evs with (c := v).
    - destruct a as [b|b|b|v|b|b|s|s]; cbn [asset_name] in *; try (left; rewrite E; destruct PN as (_ & _ & P1 & P2 & _); splits; auto; fail).
      + right. split; eauto. now apply ev_pair_evs with (c := v).
      + left. rewrite E, PN. splits; auto; discriminate. }
  apply nodup_map_on.
  - apply nodup_app. splits.
    + unfold sites. unfold id_columns. rewrite CU. apply nodup_map_on; [|congruence]. apply nodup_str_iff. reflexivity.
    + apply nodup_flat.
      * now apply NoDup_map_inv in ND.
      * intros a Ia. apply pairs_nodup. auto.
      * intros a b z Ia Ib Ja Jb. assert (asset_name a = asset_name b -> a = b) as INJ by (apply (nodup_inj asset_name assets); auto).
        destruct (KIND a z Ia Ja) as [(E1 & E2 & _)|((v & ->) & E2)], (KIND b z Ib Jb) as [(F1 & F2 & _)|((w & ->) & F2)]; try congruence.
        -- apply INJ. congruence.
        -- apply INJ. pose proof (pn_name _ P _ Ia) as X. pose proof (pn_name _ P _ Ib) as Y. cbn in *. congruence.
    + intros x J K. destruct (S1 x J) as [E _]. destruct (S2 x K) as (a & Ia & Ja & _). destruct (KIND a x Ia Ja) as [(_ & _ & X)|(_ & X)]; [tauto|]. rewrite E in X. discriminate.
  - intros x y Ix Iy E. apply col_of_inj; auto.
    + apply in_app_or in Ix. destruct Ix as [Ix|Ix]; [now apply S1|]. now destruct (S2 x Ix) as (? & _ & _ & ?).
    + apply in_app_or in Iy. destruct Iy as [Iy|Iy]; [now apply S1|]. now destruct (S2 y Iy) as (? & _ & _ & ?).
Qed.
Lemma mem_not_contains ch w s : mem ch w = true -> mem ch s = false -> contains w s = false.
Proof.
  intros W S. destruct (contains w s) eqn:E; auto. exfalso. apply contains_iff in E. destruct E as (b & a & ->). rewrite !mem_app, W in S. rewrite orb_true_r in S. discriminate.
Qed.
Lemma clean_digits p k : mem "_" p = false -> mem "t" p = false -> SpecNames.clean (p ++ show k).
Proof.
  intros A B. split.
  - apply (mem_not_contains "t"); [reflexivity|]. rewrite mem_app, B. now apply mem_show.
  - intros q J. apply (mem_not_contains "_").
    + assert (forallb (fun q => mem "_" ("-" ++ q)) quantity_names = true) as K by reflexivity. rewrite forallb_forall in K. now apply K.
    + rewrite mem_app, A. now apply mem_show.
Qed.
Lemma clean_word p : mem "_" p = false -> mem "t" p = false -> SpecNames.clean p.
Proof.
  intros A B. split.
  - now apply (mem_not_contains "t").
  - intros q J. apply (mem_not_contains "_"); auto.
    assert (forallb (fun q => mem "_" ("-" ++ q)) quantity_names = true) as K by reflexivity. rewrite forallb_forall in K. now apply K.
Qed.
Lemma plain_ordinary c assets : plain_names assets -> Forall made_evs_named assets -> id_custom (sc_idata c) = [] -> ordinary_names c assets.
Proof.
  intros P M CU. split; [|rewrite CU; intros ? []]. intros a Ia. pose proof (pn_name _ P a Ia) as PN. rewrite Forall_forall in M. specialize (M a Ia).
  destruct a as [b|b|b|v|b|b|s|s]; cbn [ordinary_asset asset_name] in *; try (apply PN).
  - destruct M as (rows & powers & caps & e & td & M). rewrite PN. split.
    + intros cc [J|J].
      * apply In_nth_error in J. destruct J as (k & J). rewrite (charger_names _ _ _ _ _ _ _ _ _ M J). apply (clean_digits "evs-charger-"); reflexivity.
      * destruct (spill_names _ _ _ _ _ _ _ M) as (p & q & SP). rewrite SP in J. destruct J as [<-|[]]. apply (clean_word "evs-charger-spill-evs"); reflexivity.
    + intros ec J. apply In_nth_error in J. destruct J as (k & J). rewrite (event_names _ _ _ _ _ _ _ _ _ M J). apply contains_iff. exists "evs-", ("-" ++ show k). reflexivity.
  - rewrite PN. apply (clean_word "valve"); reflexivity.
Qed.
Lemma plain_separate assets : plain_names assets -> Forall made_evs_named assets -> separate assets.
Proof.
  intros P M. constructor; [|apply P|].
  - apply Forall_forall. intros a Ia. pose proof (pn_name _ P a Ia) as PN. destruct a as [b|b|b|v|b|b|s|s]; cbn [asset_name] in *; try (apply PN); rewrite PN; split; reflexivity.
  - intros v Iv. rewrite Forall_forall in M. destruct (M _ Iv) as (rows & powers & caps & e & td & MD). eapply C54_constructed; eauto.
Qed.
