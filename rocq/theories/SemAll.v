(** * SemAll: custom terms over every attribute, switches included (proofs) *)
From Verif Require Import Base Pulp Params Optimizer Types Assets EVs Site Constraints Objectives Extract Pipeline Emit Prim Spec SpecSwitch SpecReport SpecRun SpecTerms SpecReadings Layout Rows Sem SemEv SemSite SemProg SemObj SemResults SemTerms.
Open Scope Q_scope.
Open Scope string_scope.

(** the switch variables have the values of the switches *)
Definition bin_eq (w : switches) (t : nat) (s : assignment) (x : oneint) : Prop :=
  match x with
  | OISite r => s (v_id (tio_import_bin r)) == w_import w t /\ s (v_id (tio_export_bin r)) == w_export w t
  | OIBattery r => s (v_id (boi_charge_bin r)) == w_charge w (b_name (boi_cfg r)) t /\ s (v_id (boi_discharge_bin r)) == w_discharge w (b_name (boi_cfg r)) t
  | OIBoiler r => s (v_id (kboi_bin r)) == w_on w (bo_name (kboi_cfg r)) t
  | OICHP r => s (v_id (coi_bin r)) == w_on w (ch_name (coi_cfg r)) t
  | OIEv r => let nm := ev_name (eoi_cfg r) in let e := eoi_event r in let k := eoi_charger r in
      fv s (eoi_charge_bin r) == w_ev_charge w nm e k t /\ fv s (eoi_discharge_bin r) == w_ev_discharge w nm e k t
  | OIEvSpill r => fv s (eoi_charge_bin r) == w_spill_charge w (ev_name (eoi_cfg r)) (eoi_event r) t
  | OIHeatPump r => s (v_id (hoi_bin r)) == w_on w (hp_name (hoi_cfg r)) t
  | _ => True
  end.
Definition bins_eq (w : switches) (s : assignment) (iv : interval_vars) : Prop := forall t row, nth_error iv t = Some row -> Forall (bin_eq w t s) row.

Definition all_quantities : list string := (plain_quantities ++ switch_quantities)%list.
Lemma getattr_known x attr g : getattr x attr = Ok g -> In attr all_quantities.
Proof.
  intros H. assert (existsb (String.eqb attr) all_quantities = true) as K.
  { unfold getattr in H. assert (getattr_base x attr <> None \/ getattr_extra x attr <> None) as K.
    { destruct (getattr_base x attr); [left; discriminate|]. destruct (getattr_extra x attr); [right; discriminate|]. exfalso. revert H. generalize (existsb (String.eqb attr) ["cfg"; "charge_event_cfg"; "charger_cfg"; "is_spill"; "model_config"]). intros []; discriminate. }
    clear H. revert K. unfold getattr_base, getattr_extra, all_quantities. cbn [existsb app plain_quantities switch_quantities].
    repeat match goal with |- context [attr =? ?s] => destruct (attr =? s); [intros _; now rewrite ?orb_true_r|] end.
    destruct x; intros [K|K]; now destruct K. }
  apply existsb_exists in K. destruct K as (y & Iy & E). apply String.eqb_eq in E. now subst.
Qed.

Lemma unknown_reading s x attr : ~ In attr all_quantities -> reading s attr x = 0.
Proof. intros N. unfold reading. destruct (getattr x attr) eqn:E; [|reflexivity]. destruct (N (getattr_known _ _ _ E)). Qed.
Lemma known_iff attr : existsb (String.eqb attr) switch_quantities = true <-> In attr switch_quantities.
Proof. rewrite existsb_exists. split; [intros (y & Iy & E); apply String.eqb_eq in E; now subst|]. intros I. exists attr. split; auto. apply String.eqb_refl. Qed.
Lemma unknown_quantity c d w t attr p : ~ In attr all_quantities -> full_quantity c d w t attr p = 0.
Proof.
  intros N. unfold full_quantity. destruct (existsb (String.eqb attr) switch_quantities) eqn:E; [apply known_iff in E; destruct N; apply in_app_iff; auto|]. clear E.
  assert (existsb (String.eqb attr) plain_quantities = false) as E.
  { apply not_true_is_false. intros E. apply existsb_exists in E. destruct E as (y & Iy & E). apply String.eqb_eq in E. subst. apply N, in_app_iff. auto. }
  cbn [existsb plain_quantities] in E. repeat (apply orb_false_iff in E; destruct E as [? E]). unfold quantity.
  repeat match goal with H : (attr =? _) = false |- _ => rewrite H; clear H end. destruct p as [|a| |]; try reflexivity. now destruct a.
Qed.
Lemma plain_not_switch attr : In attr plain_quantities -> existsb (String.eqb attr) switch_quantities = false.
Proof. intros I. cbn [plain_quantities In] in I. repeat (destruct I as [<-|I]; [reflexivity|]). destruct I. Qed.
Lemma inject_mw f q : mw_to_mwh f q == energy f q.
Proof. apply mw_energy. Qed.

Section One.
Context (c : site_cfg) (s : assignment) (d : dispatch) (w : switches) (t : nat) (f : freq) (fl : flags).
Ltac attrs I := cbn [switch_quantities In] in I; repeat (destruct I as [<-|I]; [|]); try destruct I.
Lemma all_reading a x attr : asset_shape a t f fl [x] -> (forall c, a <> AEVs c) -> oi_eq d t s x -> bin_eq w t s x ->
  is_piece x (PAsset a) /\ reading s attr x == full_quantity c d w t attr (PAsset a).
Proof.
  intros SH NE V W.
  assert (is_piece x (PAsset a)) as IP by (apply (plain_reading s d t f fl a x "electric_load_mwh" SH NE V); cbn; tauto). split; [exact IP|].
  destruct (in_dec string_dec attr all_quantities) as [I|N]; [|rewrite unknown_reading, unknown_quantity by auto; reflexivity].
  unfold all_quantities in I. apply in_app_iff in I. destruct I as [I|I].
  - unfold full_quantity. rewrite (plain_not_switch _ I). apply (plain_reading s d t f fl a x attr SH NE V I).
  - unfold full_quantity. rewrite (proj2 (known_iff _) I). destruct a as [b|b|b|b|b|b|n|n]; cbn [asset_shape] in SH.
    4:{ now destruct (NE b). }
    all: destruct SH as (r & X & SR); injection X as ->; destruct SR as (SR & _); cbn [bin_eq] in W; rewrite ?SR in W; try match type of W with _ /\ _ => destruct W end;
      attrs I; unfold reading; cbn; rewrite ?SR; first [reflexivity|assumption].
Qed.
Lemma all_ev_reading b S0 S1 E Sp xs attr : evs_shape b t f fl xs S0 S1 E Sp -> asset_fine (AEVs b) -> Forall (oi_eq d t s) xs -> Forall (bin_eq w t s) xs ->
  Forall (fun x => is_piece x (PEv b)) (map OIEv (grid E (n_events b) (n_chargers b))) /\
  Forall (fun x => is_piece x (PEvSpill b)) (map OIEvSpill (grid Sp (n_events b) (List.length (ev_spill_chargers b)))) /\
  Qsum (map (reading s attr) (map OIEv (grid E (n_events b) (n_chargers b)))) == full_quantity c d w t attr (PEv b) /\
  Qsum (map (reading s attr) (map OIEvSpill (grid Sp (n_events b) (List.length (ev_spill_chargers b))))) == full_quantity c d w t attr (PEvSpill b).
Proof.
  intros SH FN V W. destruct (ev_reading s d t f fl b S0 S1 E Sp xs "electric_load_mwh" SH FN V ltac:(cbn; tauto)) as (K1 & K2 & _ & _). split; [exact K1|split; [exact K2|]].
  destruct (in_dec string_dec attr all_quantities) as [I|N].
  2:{ rewrite !unknown_quantity by auto. split; apply Qsum_map_zero; intros x _; now rewrite unknown_reading. }
  unfold all_quantities in I. apply in_app_iff in I. unfold full_quantity. destruct I as [I|I].
  { rewrite (plain_not_switch _ I). apply (ev_reading s d t f fl b S0 S1 E Sp xs attr SH FN V I). }
  rewrite (proj2 (known_iff _) I). clear K1 K2 V. destruct SH as (-> & _ & SE & SSp). destruct FN as (L1 & Hn & Hc). rewrite Forall_app in W. destruct W as [W1 W2]. rewrite Forall_forall in W1, W2.
  assert (forall e k, (e < n_events b)%nat -> (k < n_chargers b)%nat -> 
     fv s (eoi_charge_bin (E e k)) == w_ev_charge w (ev_name b) e k t /\ fv s (eoi_discharge_bin (E e k)) == w_ev_discharge w (ev_name b) e k t /\ eoi_i (E e k) = t /\ eoi_event (E e k) = e /\ eoi_charger (E e k) = k) as A.
  { intros e k He Hk. destruct (nth_error_lt _ _ He) as (ec & Ee). destruct (nth_error_lt _ _ Hk) as (cc & Ek).
    specialize (SE e ec k cc Ee Ek). destruct SE as (Q1 & Q4 & Q2 & _ & Q3 & _).
    assert (In (OIEv (E e k)) (map OIEv (grid E (n_events b) (n_chargers b)))) as J by (apply in_map, in_grid; eauto).
    specialize (W1 _ J). cbn [bin_eq] in W1. rewrite Q1, Q2, Q3 in W1. tauto. }
  assert (forall e, (e < n_events b)%nat -> 
     fv s (eoi_charge_bin (Sp e 0%nat)) == w_spill_charge w (ev_name b) e t /\ fv s (eoi_discharge_bin (Sp e 0%nat)) == 0 /\ eoi_i (Sp e 0%nat) = t /\ eoi_event (Sp e 0%nat) = e /\ eoi_charger (Sp e 0%nat) = 0%nat) as B.
  { intros e He. destruct (nth_error_lt _ _ He) as (ec & Ee). destruct (nth_error_lt (ev_spill_chargers b) 0 ltac:(lia)) as (cc & Ek).
    specialize (SSp e ec 0%nat cc Ee Ek). destruct SSp as (Q1 & Q4 & Q2 & _ & Q3 & _ & _ & (_ & Q6) & _).
    assert (In (OIEvSpill (Sp e 0%nat)) (map OIEvSpill (grid Sp (n_events b) (List.length (ev_spill_chargers b))))) as J by (apply in_map, in_grid; exists e, 0%nat; splits; auto; lia).
    specialize (W2 _ J). cbn [bin_eq] in W2. rewrite Q1, Q2 in W2. splits; auto. rewrite Q6. reflexivity. }
  assert (forall (h : nat -> nat -> Q) (g : ev_oi -> Q), (forall e k, (e < n_events b)%nat -> (k < n_chargers b)%nat -> g (E e k) == h e k) ->
    Qsum (map g (grid E (n_events b) (n_chargers b))) == over_events b (fun e => over_chargers b (h e))) as SumE.
  { intros h g H. unfold grid. rewrite flat_map_concat_map, concat_map, Qsum_concat, !map_map. apply Qsum_map_ext. intros e Je. apply in_seq in Je. rewrite map_map. apply Qsum_map_ext. intros k Jk. apply in_seq in Jk. apply H; unfold n_events, n_chargers; lia. }
  assert (forall (h : nat -> Q) (g : ev_oi -> Q), (forall e, (e < n_events b)%nat -> g (Sp e 0%nat) == h e) ->
    Qsum (map g (grid Sp (n_events b) (List.length (ev_spill_chargers b)))) == over_events b h) as SumS.
  { intros h g H. rewrite L1. unfold grid. rewrite flat_map_concat_map, concat_map, Qsum_concat, !map_map. apply Qsum_map_ext. intros e Je. apply in_seq in Je. cbn [seq map Qsum fold_right]. rewrite Qplus_0_r. apply H. unfold n_events. lia. }
  rewrite !map_map. attrs I; cbn [switch_quantity String.eqb Ascii.eqb Bool.eqb]; split;
    first [ apply SumE; intros e k He Hk; destruct (A e k He Hk) as (A1 & A2 & A3 & A4 & A5); unfold reading; cbn; first [destruct (eoi_charge_bin (E e k)); exact A1|destruct (eoi_discharge_bin (E e k)); exact A2|rewrite ?A3, ?A4, ?A5; reflexivity]
          | apply SumS; intros e He; destruct (B e He) as (A1 & A2 & A3 & A4 & A5); unfold reading; cbn; first [destruct (eoi_charge_bin (Sp e 0%nat)); exact A1|rewrite ?A3, ?A4, ?A5; reflexivity]
          | apply Qsum_map_zero; intros x J; apply in_grid in J; destruct J as (e & k & He & Hk & ->); first [reflexivity|
              assert (k = 0%nat) as -> by lia; destruct (B e He) as (A1 & A2 & A3 & A4 & A5); unfold reading; cbn; first [destruct (eoi_discharge_bin (Sp e 0%nat)); exact A2|rewrite A5; reflexivity]] ].
Qed.
End One.

(** an attribute variable of the program *)
Definition named_var (iv : interval_vars) (v : lpvar) : Prop := exists row x attr g, In row iv /\ In x row /\ getattr x attr = Ok g /\ In v (fvars g).
(** sums of attributes over picked parts are the readings [q] *)
Definition reads_as (assets : list asset) (q : readings) (s : assignment) (iv : interval_vars) : Prop :=
  forall t row attr ty k nm, nth_error iv t = Some row -> map_type ty = Ok k ->
    Qsum (map (reading s attr) (filter (matches k nm) row)) == amount q assets t attr (picked ty nm).

Section Rows.
Context (c : site_cfg) (assets : list asset) (fl : flags) (iv : interval_vars) (lo hi : nat) (cs : list constr) (P : program c assets fl iv lo hi cs).
Lemma all_picked d w s : eq_of d s iv -> bins_eq w s iv -> reads_as assets (full_quantity c d w) s iv.
Proof.
  intros V W t row attr ty k nm E M. specialize (V t row E). specialize (W t row E). pose proof (pr_shape _ _ _ _ _ _ _ P t row E) as SH.
  assert (Forall asset_fine assets) as FN by (apply (pr_fine _ _ _ _ _ _ _ P); intros ->; destruct t; discriminate).
  set (h := fun x => if matches k nm x then reading s attr x else 0).
  assert (forall l, Qsum (map (reading s attr) (filter (matches k nm) l)) == Qsum (map h l)) as FH.
  { induction l as [|x l IH]; [reflexivity|]. cbn [filter map]. unfold Qsum in *. cbn [fold_right]. rewrite <- IH. unfold h. destruct (matches k nm x); cbn [map fold_right]; lra. }
  set (h' := fun p => if picked ty nm p then full_quantity c d w t attr p else 0).
  assert (forall l, Qsum (map (full_quantity c d w t attr) (filter (picked ty nm) l)) == Qsum (map h' l)) as FH'.
  { induction l as [|x l IH]; [reflexivity|]. cbn [filter map]. unfold Qsum in *. cbn [fold_right]. rewrite <- IH. unfold h'. destruct (picked ty nm x); cbn [map fold_right]; lra. }
  rewrite FH. unfold amount. rewrite FH'.
  destruct SH as (r & xss & -> & SR & F). inversion V as [|? ? V1 V2]; subst. inversion W as [|? ? W1 W2]; subst.
  unfold pieces. cbn [map]. change (Qsum (h' PSite :: map h' (flat_map pieces_of assets))) with (h' PSite + Qsum (map h' (flat_map pieces_of assets))).
  change (Qsum (h (OISite r) :: map h (List.concat xss))) with (h (OISite r) + Qsum (map h (List.concat xss))). apply Qplus_comp.
  - unfold h, h'. rewrite (matches_picked ty k nm (OISite r) PSite M) by (split; [reflexivity|apply SR]). destruct (picked ty nm PSite); [|reflexivity].
    destruct (in_dec string_dec attr all_quantities) as [I|N]; [|rewrite unknown_reading, unknown_quantity by auto; reflexivity].
    cbn [oi_eq oi_val] in V1. unfold vset in V1. destruct V1 as [V1 V3]. cbn [bin_eq] in W1. destruct W1 as [W1 W3]. destruct SR as (_ & _ & _ & _ & _ & L1 & L2).
    unfold all_quantities in I. cbn [plain_quantities switch_quantities app In] in I.
    repeat (destruct I as [<-|I]; [unfold reading; cbn; first [reflexivity|rewrite V1; reflexivity|rewrite V3; reflexivity|exact W1|exact W3|rewrite L1; apply inject_mw|rewrite L2; apply inject_mw]|]). destruct I.
  - rewrite flat_map_concat_map. clear -F V2 W2 FN M FH. induction F as [|a xs assets xss AS F IH]; [reflexivity|].
    cbn [List.concat map] in *. rewrite Forall_app in V2, W2. destruct V2 as [Vx V2]. destruct W2 as [Wx W2]. inversion FN as [|? ? FNa FN2]; subst. rewrite !map_app, !Qsum_app. apply Qplus_comp; [|auto]. clear IH F FN2 V2 W2.
    destruct a as [b|b|b|b|b|b|n|n]; cbn [pieces_of].
    4:{ cbn [asset_shape] in AS. destruct AS as (S0 & S1 & G & Sp & AS). destruct (all_ev_reading c s d w t (sc_freq c) fl b S0 S1 G Sp xs attr AS FNa Vx Wx) as (K1 & K2 & K3 & K4). destruct AS as (-> & _).
        rewrite map_app, Qsum_app. cbn [map]. unfold Qsum at 3. cbn [fold_right]. rewrite Qplus_0_r. rewrite <- !FH.
        rewrite (filter_const _ (picked ty nm (PEv b))), (filter_const (matches k nm) (picked ty nm (PEvSpill b))).
        - unfold h'. apply Qplus_comp; (destruct (picked ty nm _); [assumption|reflexivity]).
        - intros x J. rewrite Forall_forall in K2. eapply matches_picked; eauto.
        - intros x J. rewrite Forall_forall in K1. eapply matches_picked; eauto. }
    all: pose proof AS as AS'; cbn [asset_shape] in AS; destruct AS as (r0 & -> & _); apply Forall_inv in Vx; apply Forall_inv in Wx; destruct (all_reading c s d w t (sc_freq c) fl _ _ attr AS' ltac:(discriminate) Vx Wx) as [K1 K2];
      cbn [map]; unfold Qsum; cbn [fold_right]; rewrite !Qplus_0_r; unfold h, h'; rewrite (matches_picked ty k nm _ _ M K1); destruct (picked ty nm _); [exact K2|reflexivity].
Qed.
Lemma products_named l attr (k : Q) (G : oneint -> res Q) es y v t row : nth_error iv t = Some row -> incl l row ->
  rmap (fun x => let! f := getattr x attr in let! y := G x in Ok (escale (escale (fexpr (none_to_zero f)) y) k)) l = Ok es -> In y es -> In v (evars y) -> named_var iv v.
Proof.
  intros E L H Iy Iv. rewrite rmap_ok in H. destruct (Forall2_in_r _ _ _ _ H Iy) as (x & Ix & Ex).
  rewrite rbind_ok in Ex. destruct Ex as (f & E1 & Ex). rewrite rbind_ok in Ex. destruct Ex as (y' & E2 & Ex). injection Ex as <-.
  rewrite !evars_escale, evars_fexpr in Iv. exists row, x, attr, f. splits; [eapply nth_error_In; eauto|now apply L|exact E1|].
  destruct (Qeq_bool k 0); [destruct Iv|]. destruct (Qeq_bool y' 0); [destruct Iv|]. destruct f; exact Iv.
Qed.
(** ** entries of custom constraints *)
Definition entry_in (sum : bool) (q : readings) (t : nat) (e : centry) : Q :=
  match e with CNumber x => if sum then x / inject_Z (Z.of_nat (n_intervals c)) else x | _ => entry_at q c assets t e end.
Lemma entry_any q s t sum e l : reads_as assets q s iv -> resolve_constraint_term e iv (sc_idata c) t sum = Ok l ->
  Qsum (map (eval s) l) == entry_in sum q t e /\ forall y v, In y l -> In v (evars y) -> named_var iv v.
Proof.
  intros V H. destruct e as [x|k]; cbn [resolve_constraint_term entry_in entry_at] in *.
  - assert (exists z, l = [econst z] /\ z == (if sum then x / inject_Z (Z.of_nat (n_intervals c)) else x)) as (z & -> & Z).
    { destruct sum; [destruct (Nat.eqb _ _); [discriminate|]|]; injection H as <-; eexists; (split; [reflexivity|]); [reflexivity|field]. }
    split; [cbn [map Qsum fold_right]; rewrite eval_econst, Z; lra|]. intros y v [<-|[]] Iv. destruct Iv.
  - rewrite rbind_ok in H. destruct H as (xs & HF & H). destruct (filter_str_ok iv _ _ _ _ HF) as (kk & row & M & E & ->). split.
    + rewrite (products_eval s (fun _ _ => Err AttributeErr) _ _ (data_value (sc_idata c) (ct_interval_data k) t) (ct_coefficient k) (fun _ => data_factor (sc_idata c) (ct_interval_data k) t) _ (fun _ q Hq => data_factor_value _ _ _ _ Hq) H).
      rewrite (V t row _ _ _ _ E M). reflexivity.
    + intros y v Iy Iv. eapply (products_named _ _ _ _ _ _ _ t row E); [|exact H|exact Iy|exact Iv]. intros x Ix. apply filter_In in Ix. tauto.
Qed.
Lemma side_any q s t sum side l : reads_as assets q s iv -> add_terms side iv (sc_idata c) t sum = Ok l ->
  Qsum (map (eval s) l) == Qsum (map (entry_in sum q t) side) /\ forall y v, In y l -> In v (evars y) -> named_var iv v.
Proof.
  intros V H. unfold add_terms in H. rewrite rbind_ok in H. destruct H as (ls & H & [= <-]). rewrite rmap_ok in H.
  induction H as [|e x side ls E F IH]; [split; [reflexivity|intros y v []]|]. destruct (entry_any q s t sum e x V E) as [A1 A2]. destruct IH as [B1 B2].
  cbn [List.concat map]. rewrite map_app, Qsum_app, A1, B1. split; [reflexivity|]. intros y v Iy Iv. apply in_app_iff in Iy. destruct Iy; eauto.
Qed.

Lemma any_in_false q t side : Qsum (map (entry_in false q t) side) == side_at q c assets t side.
Proof. apply Qsum_map_ext. intros e _. destruct e; reflexivity. Qed.
Lemma any_in_true q side : (0 < n_intervals c)%nat -> Qsum (map (fun t => Qsum (map (entry_in true q t) side)) (seq 0 (n_intervals c))) == side_sum q c assets side.
Proof.
  intros Hn. unfold side_sum. induction side as [|e side IH].
  - apply Qsum_map_zero. reflexivity.
  - cbn [map]. change (Qsum (entry_sum q c assets e :: map (entry_sum q c assets) side)) with (entry_sum q c assets e + Qsum (map (entry_sum q c assets) side)).
    rewrite <- IH. rewrite <- Qsum_map_plus_at. apply Qplus_comp; [|reflexivity].
    destruct e as [x|k]; [|reflexivity]. cbn [entry_in entry_sum]. rewrite Qsum_const, seq_length. field. change 0 with (inject_Z 0). rewrite inject_Z_injective. lia.
Qed.

Lemma any_sem k o u o' : (0 < n_intervals c)%nat -> add_custom_constraint k iv (sc_idata c) o = Ok (u, o') ->
  exists ks, extends o o' ks /\ forall q s, reads_as assets q s iv ->
    (all_ok s ks -> satisfied q c assets k) /\
    (satisfied q c assets k -> (forall v, named_var iv v -> var_ok s v) -> all_ok s ks).
Proof.
  intros Hn H. unfold add_custom_constraint in H. rewrite bind_ok in H. destruct H as ((l & g) & o1 & H1 & H). cbn [fst snd] in H.
  unfold satisfied. destruct (cn_sum k) eqn:SU.
  - destruct (loop_sum _ _ _ _ SU _ _ _ _ _ _ H1) as (-> & la & lb & F1 & F2 & -> & ->). cbn [app] in H. rewrite SU in *.
    exists [mkC (esub (esum (List.concat la)) (esum (List.concat lb))) (cn_sense k)]. split; [eapply emits_constrain; exact H|]. intros q s V.
    assert (forall side ls, Forall2 (fun t a => add_terms side iv (sc_idata c) t true = Ok a) (seq 0 (id_n (sc_idata c))) ls ->
      eval s (esum (List.concat ls)) == side_sum q c assets side /\ forall v, In v (evars (esum (List.concat ls))) -> named_var iv v) as SD.
    { intros side ls F. split.
      - rewrite <- (any_in_true q side Hn). apply (horizon_sum (fun t => add_terms side iv (sc_idata c) t true)); [now apply rmap_ok|]. intros t x E. apply (side_any q s t true side x V E).
      - intros v Iv. rewrite evars_esum in Iv. apply in_flat_map in Iv. destruct Iv as (y & Iy & Iv). apply in_concat in Iy. destruct Iy as (x & Ix & Iy). destruct (Forall2_in_r _ _ _ _ F Ix) as (t & _ & E). apply (proj2 (side_any q s t true side x V E) y v Iy Iv). }
    destruct (SD _ _ F1) as [A1 A2]. destruct (SD _ _ F2) as [B1 B2]. unfold holds_in_total.
    rewrite all_ok_cons, all_ok_nil. unfold constr_ok. cbn [c_expr c_sense]. split.
    + intros ((K & _) & _). rewrite <- (compares_ext _ _ _ _ _ A1 B1). apply sense_compares. destruct (cn_sense k); cbn in *; rewrite eval_esub in K; exact K.
    + intros K VO. split; [|exact Logic.I]. split.
      * rewrite <- (compares_ext _ _ _ _ _ A1 B1) in K. apply sense_compares in K. destruct (cn_sense k); cbn in *; rewrite eval_esub; exact K.
      * rewrite Forall_forall. intros v Iv. rewrite evars_esub, in_app_iff in Iv. apply VO. destruct Iv; auto.
  - destruct (loop_each _ _ _ _ SU _ _ _ _ H1) as (ks & EX & F). rewrite SU in *. apply ret_ok in H. destruct H as [_ <-]. exists ks. split; auto. intros q s V.
    assert (forall t kk, (exists a b, add_terms (cn_lhs k) iv (sc_idata c) t false = Ok a /\ add_terms (cn_rhs k) iv (sc_idata c) t false = Ok b /\ kk = mkC (esub (esum a) (esum b)) (cn_sense k)) ->
      (constr_ok s kk -> holds_at q c assets k t) /\ (holds_at q c assets k t -> (forall v, named_var iv v -> var_ok s v) -> constr_ok s kk)) as ST.
    { intros t kk (a & b & Ha & Hb & ->). destruct (side_any q s t false _ a V Ha) as [A1 A2]. destruct (side_any q s t false _ b V Hb) as [B1 B2]. rewrite any_in_false in A1, B1. unfold holds_at, constr_ok. cbn [c_expr c_sense].
      rewrite <- eval_esum in A1, B1. split.
      - intros (K & _). rewrite <- (compares_ext _ _ _ _ _ A1 B1). apply sense_compares. destruct (cn_sense k); cbn in *; rewrite eval_esub in K; exact K.
      - intros K VO. split.
        + rewrite <- (compares_ext _ _ _ _ _ A1 B1) in K. apply sense_compares in K. destruct (cn_sense k); cbn in *; rewrite eval_esub; exact K.
        + rewrite Forall_forall. intros v Iv. rewrite evars_esub, !evars_esum, in_app_iff, !in_flat_map in Iv. apply VO. destruct Iv as [(y & Iy & Iv)|(y & Iy & Iv)]; eauto. }
    split.
    + intros OK t Ht. unfold all_ok in OK. rewrite Forall_forall in OK.
      destruct (nth_error_lt ks t) as (kk & Ek); [rewrite <- (Forall2_len _ _ _ F), seq_length; exact Ht|].
      assert (nth_error (seq 0 (id_n (sc_idata c))) t = Some t) as Es by (rewrite (nth_error_nth' _ 0%nat), seq_nth by (rewrite ?seq_length; exact Ht); reflexivity).
      pose proof (Forall2_nth _ _ _ _ _ _ F Es Ek) as K. apply (ST t kk K). apply OK. eapply nth_error_In; eauto.
    + intros K VO. unfold all_ok. rewrite Forall_forall. intros kk Ik. destruct (Forall2_in_r _ _ _ _ F Ik) as (t & It & E). apply in_seq in It. apply (ST t kk E); auto. apply K. unfold n_intervals. lia.
Qed.
Lemma anys_sem cons o o' : (0 < n_intervals c)%nat -> forM_ cons (fun k => add_custom_constraint k iv (sc_idata c)) o = Ok (tt, o') ->
  exists ks, extends o o' ks /\ forall q s, reads_as assets q s iv ->
    (all_ok s ks -> Forall (satisfied q c assets) cons) /\
    (Forall (satisfied q c assets) cons -> (forall v, named_var iv v -> var_ok s v) -> all_ok s ks).
Proof.
  intros Hn. revert o. induction cons as [|k cons IH]; intros o H.
  - cbn in H. injection H as <-. exists []. split; [apply extends_refl|]. intros q s V. split; [constructor|]. intros. now rewrite all_ok_nil.
  - cbn [forM_] in H. rewrite bind_ok in H. destruct H as ([] & o1 & H1 & H). destruct (any_sem k _ _ _ Hn H1) as (k1 & E1 & S1). destruct (IH _ H) as (k2 & E2 & S2).
    exists (k1 ++ k2)%list. split; [eapply extends_trans; eauto|]. intros q s V. destruct (S1 q s V) as [A1 A2]. destruct (S2 q s V) as [B1 B2]. rewrite all_ok_app. split.
    + intros [X Y]. constructor; auto.
    + intros X VO. inversion X; subst. auto.
Qed.

Lemma simple_any q s k t l : reads_as assets q s iv -> simple_term_at iv (sc_idata c) k t = Ok l ->
  Qsum (map (eval s) l) == term_at q c assets k t /\ forall y v, In y l -> In v (evars y) -> named_var iv v.
Proof.
  intros V H. unfold simple_term_at in H. rewrite rbind_ok in H. destruct H as (xs & HF & H). unfold simple_terms_for in H.
  assert (exists row, nth_error iv t = Some row /\ incl xs row /\ Qsum (map (reading s (t_variable k)) xs) == amount q assets t (t_variable k) (term_picks k)) as (row & E & L & SM).
  { unfold opt_eqb in HF. unfold amount, term_picks. revert HF. generalize (t_asset_type k). intros oty HF. destruct oty as [ty|].
    - destruct (string_dec ty "*") as [TE|NE]; [subst ty; cbn [String.eqb Ascii.eqb Bool.eqb] in HF|rewrite (proj2 (String.eqb_neq ty "*") NE) in HF].
      + rewrite py_index_nat, of_option_ok in HF. exists xs. splits; auto; [apply incl_refl|]. rewrite <- (V t xs (t_variable k) None None None HF eq_refl). now rewrite filter_all.
      + destruct (filter_str_ok iv _ _ _ _ HF) as (kk & row & M & E & ->). exists row. splits; auto; [intros x Ix; apply filter_In in Ix; tauto|].
        rewrite (V t row _ _ _ _ E M). unfold amount.
        apply Qsum_map_filter_ext. intros p. now rewrite (proj2 (String.eqb_neq ty "*") NE).
    - destruct (filter_str_ok iv _ _ _ _ HF) as (kk & row & M & E & ->). exists row. splits; auto; [intros x Ix; apply filter_In in Ix; tauto|]. apply (V t row _ _ _ _ E M). }
  split.
  - rewrite (products_eval s (fun _ _ => Err AttributeErr) _ _ (data_value (sc_idata c) (t_interval_data k) t) (t_coefficient k) (fun _ => data_factor (sc_idata c) (t_interval_data k) t) _ (fun _ q' Hq => data_factor_value _ _ _ _ Hq) H).
    rewrite SM. reflexivity.
  - intros y v Iy Iv. eapply (products_named _ _ _ _ _ _ _ t row E L H); eauto.
Qed.
End Rows.
