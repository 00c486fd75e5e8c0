(** * Compare: carrying a dispatch over to another site (proofs) *)
From Coq Require Import Permutation.
From Verif Require Import Base Pulp Params Optimizer Types Pipeline Spec SpecRun SpecCost Emit Prim Rows Complete Bounded Pad SpecCompare.
Open Scope Q_scope.

Lemma total_app g l1 l2 : total g (l1 ++ l2) == total g l1 + total g l2.
Proof. unfold total. rewrite map_app. apply Qsum_app. Qed.
Lemma total_perm g l1 l2 : Permutation l1 l2 -> total g l1 == total g l2.
Proof.
  intros P. induction P; rewrite ?total_cons in *.
  - reflexivity.
  - now rewrite IHP.
  - ring.
  - etransitivity; eauto.
Qed.
Lemma total_f2 (R : asset -> asset -> Prop) g g' l l' : Forall2 R l l' -> (forall a a', In a l -> In a' l' -> R a a' -> g a == g' a') -> total g l == total g' l'.
Proof.
  intros F. induction F as [|a a' l l' H F IH]; intros K; [reflexivity|]. rewrite !total_cons. rewrite (K a a'), IH; [reflexivity| |now left|now left|exact H].
  intros; apply K; auto; now right.
Qed.
Lemma total_zero g (l : list asset) : (forall a, In a l -> g a == 0) -> total g l == 0.
Proof. intros H. induction l as [|a l IH]; [reflexivity|]. rewrite total_cons, (H a (or_introl eq_refl)), IH; [ring|]. intros; apply H; now right. Qed.

(** ** the dispatch of another site *)
Fixpoint source (pairs : list (asset * asset)) (nm : string) : option string :=
  match pairs with
  | [] => None
  | (a, a') :: l => if string_dec (asset_name a') nm then Some (asset_name a) else source l nm
  end.
Fixpoint charge_of (extra : list asset) (nm : string) : Q :=
  match extra with
  | [] => 0
  | ABattery b :: l => if string_dec (b_name b) nm then b_initial_charge_mwh b else charge_of l nm
  | _ :: l => charge_of l nm
  end.
Definition idle (extra : list asset) (nm : string) (q : qty) (t : nat) : Q :=
  match q with Soc0 | Soc1 => charge_of extra nm | _ => 0 end.
Definition carry (pairs : list (asset * asset)) (extra : list asset) (d : dispatch) : dispatch :=
  let via {A} (f : string -> A) (z : A) nm := match source pairs nm with Some o => f o | None => z end in
  mkDispatch (d_import d) (d_export d)
    (fun nm => match source pairs nm with Some o => d_qty d o | None => idle extra nm end)
    (via (d_ev_charge d) (fun _ _ _ => 0)) (via (d_ev_discharge d) (fun _ _ _ => 0)) (via (d_ev_loss d) (fun _ _ _ => 0))
    (via (d_spill_charge d) (fun _ _ => 0)) (via (d_spill_loss d) (fun _ _ => 0)) (via (d_ev_soc0 d) (fun _ _ => 0)) (via (d_ev_soc1 d) (fun _ _ => 0)).

Definition carried (d : dispatch) (a : asset) (d' : dispatch) (a' : asset) : Prop :=
  let o := asset_name a in let nm := asset_name a' in
  d_qty d' nm = d_qty d o /\ d_ev_charge d' nm = d_ev_charge d o /\ d_ev_discharge d' nm = d_ev_discharge d o /\ d_ev_loss d' nm = d_ev_loss d o /\
  d_spill_charge d' nm = d_spill_charge d o /\ d_spill_loss d' nm = d_spill_loss d o /\ d_ev_soc0 d' nm = d_ev_soc0 d o /\ d_ev_soc1 d' nm = d_ev_soc1 d o.
Lemma carry_carried pairs extra d a a' : source pairs (asset_name a') = Some (asset_name a) -> carried d a (carry pairs extra d) a'.
Proof. intros E. unfold carried, carry. cbn [d_qty d_ev_charge d_ev_discharge d_ev_loss d_spill_charge d_spill_loss d_ev_soc0 d_ev_soc1]. rewrite E. splits; reflexivity. Qed.
Lemma source_in l l' a a' : NoDup (map asset_name l') -> Forall2 (fun _ _ => True) l l' -> In (a, a') (combine l l') -> source (combine l l') (asset_name a') = Some (asset_name a).
Proof.
  intros ND F. induction F as [|x x' l l' _ F IH]; cbn [combine source]; intros J; [destruct J|]. cbn [map] in ND. inversion ND as [|? ? N1 N2]; subst. destruct J as [J|J].
  - injection J as -> ->. destruct (string_dec _ _); [reflexivity|congruence].
  - destruct (string_dec (asset_name x') (asset_name a')) as [E|E]; [|auto]. exfalso. apply N1. rewrite E. apply in_combine_r in J. now apply in_map.
Qed.
Lemma source_none l l' nm : ~ In nm (map asset_name l') -> source (combine l l') nm = None.
Proof.
  revert l'. induction l as [|x l IH]; intros [|x' l'] H; cbn [combine source]; auto. cbn [map In] in H. destruct (string_dec _ _); [tauto|]. apply IH. tauto.
Qed.
Lemma charge_of_in extra b : NoDup (map asset_name extra) -> In (ABattery b) extra -> charge_of extra (b_name b) = b_initial_charge_mwh b.
Proof.
  induction extra as [|x l IH]; cbn [map In]; intros ND J; [destruct J|]. inversion ND as [|? ? N1 N2]; subst. destruct J as [->|J].
  - cbn [charge_of]. destruct (string_dec _ _); [reflexivity|congruence].
  - destruct x as [k|k|k|k|k|k|nm|nm]; cbn [charge_of]; auto. destruct (string_dec _ _) as [E|E]; auto. exfalso. apply N1. cbn [asset_name] in *. rewrite E. apply (in_map asset_name) in J. exact J.
Qed.

(** the flows of a carried asset are the same *)
Ltac flows := cbn [elec_gen elec_load charge discharge ht_gen ht_load lt_gen lt_load gas_use spilled asset_name ev_name] in *.
Lemma f2_length {A B} (R : A -> B -> Prop) l l' : Forall2 R l l' -> List.length l = List.length l'.
Proof. induction 1; cbn; congruence. Qed.
Lemma carried_flows f n d a d' a' t : at_least f n a a' -> carried d a d' a' ->
  (elec_gen d' t a' == elec_gen d t a /\ elec_load d' t a' == elec_load d t a /\ charge d' t a' == charge d t a /\ discharge d' t a' == discharge d t a) /\
  (ht_gen d' t a' == ht_gen d t a /\ ht_load d' t a' == ht_load d t a /\ lt_gen d' t a' == lt_gen d t a /\ lt_load d' t a' == lt_load d t a) /\
  gas_use d' t a' == gas_use d t a /\ spilled d' t a' == spilled d t a.
Proof.
  intros L (Q & C1 & C2 & _ & C3 & _). destruct a as [b|b|b|b|b|b|nm|nm]; destruct a' as [b'|b'|b'|b'|b'|b'|nm'|nm']; cbn [at_least] in L; try destruct L as [].
  4:{ destruct H0 as (H0 & _). apply f2_length in H. apply f2_length in H0. flows. unfold ev_total_charge, ev_total_discharge, ev_spill_total. rewrite <- H, <- H0, C1, C2, C3. splits; reflexivity. }
  all: flows; rewrite ?Q; splits; reflexivity.
Qed.
(** and it obeys the rules of the asset that can do more *)
Lemma f2_nth {A B} (R : A -> B -> Prop) l l' i y : Forall2 R l l' -> nth_error l' i = Some y -> exists x, nth_error l i = Some x /\ R x y.
Proof. intros F. revert i. induction F; intros [|i] E; cbn in E; try discriminate; [injection E as <-; eexists; split; [reflexivity|assumption]|]. apply IHF in E. exact E. Qed.
Lemma can_charge_same fl fl' c c' e t : limit_charge_variables_to_valid_events fl' = limit_charge_variables_to_valid_events fl -> presence c' e t == presence c e t -> can_charge fl c e t -> can_charge fl' c' e t.
Proof. intros E P. unfold can_charge. rewrite E. destruct (limit_charge_variables_to_valid_events fl); rewrite P; auto. Qed.
Lemma carried_physical f n d a d' a' fl fl' : at_least f n a a' -> flags_at_least fl fl' -> carried d a d' a' -> asset_physical a f fl n d -> asset_physical a' f fl' n d'.
Proof.
  intros L [FD FL] (Q & C1 & C2 & C3 & C4 & C5 & C6 & C7). destruct a as [b|b|b|b|b|b|nm|nm]; destruct a' as [b'|b'|b'|b'|b'|b'|nm'|nm']; cbn [at_least] in L; try (now destruct L); cbn [asset_physical asset_name] in *.
  - destruct L as (L1 & L2 & L3 & L4 & L5 & L6). unfold battery_physical, between in *. rewrite Q. intros (P1 & P2 & P3 & P4). splits; auto.
    + intros t Ht. specialize (P1 t Ht). rewrite L4. lra.
    + now rewrite L5.
    + now rewrite L6.
  - destruct L as (L1 & L2 & L3). unfold boiler_physical, between in *. rewrite Q. intros P t Ht. specialize (P t Ht). rewrite L3. lra.
  - destruct L as (L1 & L2 & L3 & L4 & L5). unfold chp_physical, between in *. rewrite Q. intros P t Ht. destruct (P t Ht) as (P1 & P2 & P3 & P4 & P5 & P6). rewrite L4, L5, L3. splits; auto; try lra.
  - destruct L as (L1 & L2 & L3 & L4). unfold evs_physical. cbv zeta. rewrite C1, C2, C3, C4, C5, C6, C7. rewrite <- (f2_length _ _ _ L1), <- (f2_length _ _ _ L2). intros (P1 & P2 & P3 & P4 & P5 & P6 & P7). splits; auto.
    + intros t e ec k cc Ht Ee Ek. destruct (f2_nth _ _ _ _ _ L1 Ee) as (ec0 & Ee0 & _ & EF). destruct (f2_nth _ _ _ _ _ L2 Ek) as (cc0 & Ek0 & W1 & W2).
      assert (e < List.length (ev_event_cfgs b))%nat as He by (apply nth_error_Some; congruence). specialize (L4 e t He Ht).
      destruct (P1 t e ec0 k cc0 Ht Ee0 Ek0) as (A & B & C & D & E). rewrite EF. splits; auto.
      * destruct B as [B|[B1 B2]]; auto. right. split; [unfold between in *; lra|]. eapply can_charge_same; eauto.
      * destruct (allow_evs_discharge fl) eqn:A1.
        -- rewrite (FD eq_refl). destruct C as [C1' [C|[C2' C3']]]; split; auto. right. unfold between in *. rewrite L4. split; [lra|auto].
        -- destruct (allow_evs_discharge fl'); auto. split; [lra|auto].
    + intros t e ec cc Ht Ee Ek. destruct (f2_nth _ _ _ _ _ L1 Ee) as (ec0 & Ee0 & _ & EF). destruct (f2_nth _ _ _ _ _ L3 Ek) as (cc0 & Ek0 & W1 & W2).
      assert (e < List.length (ev_event_cfgs b))%nat as He by (apply nth_error_Some; congruence). specialize (L4 e t He Ht).
      destruct (P2 t e ec0 cc0 Ht Ee0 Ek0) as (A & B & C & D). rewrite EF. splits; auto.
      destruct B as [B|[B1 B2]]; auto. right. split; [unfold between in *; lra|]. eapply can_charge_same; eauto.
    + intros t e ec Ht Ee. destruct (f2_nth _ _ _ _ _ L1 Ee) as (ec0 & Ee0 & EC & _). unfold between in *. rewrite EC. apply (P5 t e ec0 Ht Ee0).
    + intros e ec Ee. destruct (f2_nth _ _ _ _ _ L1 Ee) as (ec0 & Ee0 & EC & _). rewrite EC. apply (P7 e ec0 Ee0).
  - destruct L as (L1 & L2). unfold hp_physical, between in *. rewrite Q. intros P t Ht. specialize (P t Ht). rewrite L2. lra.
  - unfold rg_physical, between, data in *. rewrite Q. intros P t Ht. specialize (P t Ht). specialize (L t Ht). cbv zeta in *. lra.
  - unfold spill_physical. rewrite Q. auto.
  - unfold valve_physical. rewrite Q. auto.
Qed.

(** assets standing idle *)
Lemma idle_flows f n d extra a t : NoDup (map asset_name extra) -> In a extra -> can_idle f n a -> d_qty d (asset_name a) = idle extra (asset_name a) ->
  (elec_gen d t a == 0 /\ elec_load d t a == 0 /\ charge d t a == 0 /\ discharge d t a == 0) /\
  (ht_gen d t a == 0 /\ ht_load d t a == 0 /\ lt_gen d t a == 0 /\ lt_load d t a == 0) /\
  gas_use d t a == 0 /\ spilled d t a == 0.
Proof.
  intros ND J L Q. destruct a as [b|b|b|b|b|b|nm|nm]; cbn [can_idle] in L; try (now destruct L); flows; rewrite ?Q; cbn [idle]; splits; try reflexivity.
Qed.
Lemma idle_physical f n d extra a fl : NoDup (map asset_name extra) -> In a extra -> can_idle f n a -> d_qty d (asset_name a) = idle extra (asset_name a) -> asset_physical a f fl n d.
Proof.
  intros ND J L Q. destruct a as [b|b|b|b|b|b|nm|nm]; cbn [can_idle asset_physical asset_name] in *; try (now destruct L).
  - destruct L as (L1 & L2 & L3 & L4). unfold battery_physical, between in *. rewrite Q. cbn [idle]. rewrite (charge_of_in _ _ ND J). splits; try reflexivity.
    + intros t Ht. splits; lra.
    + now symmetry.
  - unfold boiler_physical, between in *. rewrite Q. cbn [idle]. intros t Ht. splits; try lra; try apply L. unfold Qdiv. ring.
  - unfold chp_physical, between. rewrite Q. cbn [idle]. intros t Ht. splits; try lra; try (left; reflexivity). intros _. unfold Qdiv. ring.
  - unfold hp_physical, between. rewrite Q. cbn [idle]. intros t Ht. splits; lra.
  - unfold rg_physical, between, data in *. rewrite Q. cbn [idle]. intros t Ht. apply (L t Ht).
  - unfold spill_physical. rewrite Q. cbn [idle]. intros t Ht. splits; lra.
  - unfold valve_physical. rewrite Q. cbn [idle]. intros t Ht. split; lra.
Qed.

(** ** the whole site *)
Section Carry.
Variables (c c' : site_cfg) (assets assets' better extra : list asset) (fl fl' : flags) (d : dispatch).
Hypothesis SL : site_at_least c c'.
Hypothesis FL : flags_at_least fl fl'.
Hypothesis BT : Forall2 (at_least (sc_freq c) (n_intervals c)) assets better.
Hypothesis EX : Forall (can_idle (sc_freq c) (n_intervals c)) extra.
Hypothesis PM : Permutation assets' (better ++ extra).
Hypothesis ND : NoDup (map asset_name assets').
Hypothesis PH : physical c assets fl d.
Let d' := carry (combine assets better) extra d.

Lemma carry_names : NoDup (map asset_name better) /\ NoDup (map asset_name extra) /\ forall a, In a extra -> ~ In (asset_name a) (map asset_name better).
Proof.
  assert (NoDup (map asset_name (better ++ extra))) as N by (eapply Permutation_NoDup; [apply Permutation_map, PM|exact ND]). rewrite map_app in N.
  clear -N. induction (map asset_name better) as [|x l IH]; cbn [app] in N; [splits; [constructor|exact N|intros ? ? []]|].
  inversion N as [|? ? N1 N2]; subst. destruct (IH N2) as (A & B & C). splits; auto.
  - constructor; auto. intros J. apply N1, in_or_app. now left.
  - intros a J [E|K]; [|exact (C a J K)]. apply N1, in_or_app. right. rewrite E. now apply in_map.
Qed.
Lemma carry_pair a a' : In (a, a') (combine assets better) -> carried d a d' a'.
Proof. intros J. apply carry_carried. apply source_in; [apply carry_names| |exact J]. clear -BT. induction BT; constructor; auto. Qed.
Lemma carry_idle a : In a extra -> d_qty d' (asset_name a) = idle extra (asset_name a).
Proof. intros J. unfold d', carry. cbn [d_qty]. rewrite source_none; [reflexivity|]. now apply carry_names. Qed.
Lemma carry_total (g : dispatch -> nat -> asset -> Q) t :
  (forall a a', at_least (sc_freq c) (n_intervals c) a a' -> carried d a d' a' -> g d' t a' == g d t a) ->
  (forall a, In a extra -> can_idle (sc_freq c) (n_intervals c) a -> d_qty d' (asset_name a) = idle extra (asset_name a) -> g d' t a == 0) ->
  total (g d' t) assets' == total (g d t) assets.
Proof.
  intros H1 H2. rewrite (total_perm _ _ _ PM), total_app, (total_zero _ extra), Qplus_0_r.
  - symmetry. assert (forall a a', In (a, a') (combine assets better) -> carried d a d' a') as CP by exact carry_pair.
    clearbody d'. clear -BT H1 CP. unfold total. induction BT as [|a a' l l' L F IH]; [reflexivity|]. cbn [map]. change (g d t a + Qsum (map (g d t) l) == g d' t a' + Qsum (map (g d' t) l')).
    rewrite (H1 a a' L) by (apply CP; now left). rewrite IH; [reflexivity|exact F|]. intros x x' J. apply CP. now right.
  - intros a J. rewrite Forall_forall in EX. apply H2; auto. now apply carry_idle.
Qed.
Lemma carry_flows t :
  total (elec_gen d' t) assets' == total (elec_gen d t) assets /\ total (elec_load d' t) assets' == total (elec_load d t) assets /\
  total (charge d' t) assets' == total (charge d t) assets /\ total (discharge d' t) assets' == total (discharge d t) assets /\
  total (ht_gen d' t) assets' == total (ht_gen d t) assets /\ total (ht_load d' t) assets' == total (ht_load d t) assets /\
  total (lt_gen d' t) assets' == total (lt_gen d t) assets /\ total (lt_load d' t) assets' == total (lt_load d t) assets /\
  total (gas_use d' t) assets' == total (gas_use d t) assets /\ total (spilled d' t) assets' == total (spilled d t) assets.
Proof.
  destruct carry_names as (_ & NE & _).
  assert (forall a a', at_least (sc_freq c) (n_intervals c) a a' -> carried d a d' a' -> _) as K1 by (intros a a' L C; exact (carried_flows _ _ d a d' a' t L C)).
  assert (forall a, In a extra -> can_idle (sc_freq c) (n_intervals c) a -> d_qty d' (asset_name a) = idle extra (asset_name a) -> _) as K2 by (intros a J L Q; exact (idle_flows _ _ d' extra a t NE J L Q)).
  splits; apply carry_total; intros; first [now apply K1|now apply K2].
Qed.
Lemma carry_physical : physical c' assets' fl' d'.
Proof.
  destruct SL as (N & F & D1 & D2 & D3 & D4 & LI & LE). unfold physical. rewrite N. split.
  - intros t Ht. destruct PH as [PT _]. destruct (PT t Ht) as (G & E & H & L). destruct (carry_flows t) as (T1 & T2 & T3 & T4 & T5 & T6 & T7 & T8 & _).
    unfold grid_limits, electricity_balanced, high_temperature_balanced, low_temperature_balanced, between in *. rewrite T1, T2, T3, T4, T5, T6, T7, T8.
    rewrite (D1 t Ht), (D2 t Ht), (D3 t Ht), (D4 t Ht), F. cbn [d_import d_export d' carry]. splits; auto; lra.
  - rewrite F. intros a' Ia. apply (Permutation_in _ PM), in_app_or in Ia. destruct Ia as [Ia|Ia].
    + assert (exists a, In (a, a') (combine assets better) /\ at_least (sc_freq c) (n_intervals c) a a') as (a & J & L).
      { clear -BT Ia. induction BT as [|x x' l l' L BT' IH]; [destruct Ia|]. destruct Ia as [<-|Ia]; [exists x; split; [now left|auto]|]. destruct (IH BT' Ia) as (a & J & K). exists a. split; [now right|auto]. }
      eapply carried_physical; [exact L|exact FL|apply carry_pair, J|]. apply PH. now apply in_combine_l in J.
    + rewrite Forall_forall in EX. eapply idle_physical; [apply carry_names|exact Ia|now apply EX|now apply carry_idle].
Qed.
Lemma carry_cost : prices_at_least c c' -> dispatch_cost c' assets' d' <= dispatch_cost c assets d.
Proof.
  intros (Q1 & Q2 & Q3). unfold dispatch_cost, over_horizon. destruct SL as (-> & _). apply Qsum_le. intros t It. apply in_seq in It. assert (t < n_intervals c)%nat as Ht by lia.
  unfold interval_cost. destruct (carry_flows t) as (_ & _ & _ & _ & _ & _ & _ & _ & T1 & T2). rewrite T1, T2. cbn [d_import d_export d' carry].
  destruct PH as [PT PA]. destruct (PT t Ht) as (((I1 & _) & (E1 & _) & _) & _).
  assert (0 <= total (gas_use d t) assets) as G by (apply Qsum_nonneg; intros a Ia; eapply gas_nonneg; [apply PA, Ia|exact Ht]).
  specialize (Q1 t Ht). specialize (Q2 t Ht). specialize (Q3 t Ht). set (g := total (gas_use d t) assets) in *.
  assert (forall x p p', 0 <= x -> p' <= p -> x * p' <= x * p) as M by (intros x p p' A B; rewrite !(Qmult_comm x); now apply Qmult_le_compat_r).
  pose proof (M _ _ _ I1 Q1). pose proof (M _ _ _ E1 Q2). pose proof (M _ _ _ G Q3). lra.
Qed.
Lemma carry_emissions : same_intensities c c' -> dispatch_emissions c' assets' d' == dispatch_emissions c assets d.
Proof.
  intros Q1. unfold dispatch_emissions, over_horizon. destruct SL as (-> & _). apply Qsum_map_ext. intros t It. apply in_seq in It. assert (t < n_intervals c)%nat as Ht by lia.
  unfold interval_emissions. destruct (carry_flows t) as (_ & _ & _ & _ & _ & _ & _ & _ & T1 & T2). rewrite T1, T2, (Q1 t Ht). reflexivity.
Qed.
End Carry.
