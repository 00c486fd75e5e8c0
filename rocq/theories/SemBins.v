(** * SemBins: the on/off columns of a row of the results table (proofs) *)
From Verif Require Import Base Pulp Params Optimizer Types Assets EVs Site Constraints Objectives Extract Pipeline Emit Prim Spec SpecSwitch SpecReport SpecRun SpecTerms SpecReadings Layout Rows Sem SemEv SemSite SemProg SemObj SemCells SemRows SemResults SemTerms SemAll.
Open Scope Q_scope.

Definition has (ys : list (string * cell)) (col : string) (q : Q) : Prop := exists x, In (col, Some x) ys /\ x == q.
Lemma has_l a b col q : has a col q -> has (a ++ b)%list col q.
Proof. intros (x & I & E). exists x. split; auto. apply in_app_iff. now left. Qed.
Lemma has_r a b col q : has b col q -> has (a ++ b)%list col q.
Proof. intros (x & I & E). exists x. split; auto. apply in_app_iff. now right. Qed.
Lemma has_concat ls l col q : In l ls -> has l col q -> has (List.concat ls) col q.
Proof. intros Il (x & I & E). exists x. split; auto. apply in_concat. eauto. Qed.

Section bins.
Context (vals : values) (s : assignment) (V : forall v x, vals v = Some x -> x = s (v_id v)).

Lemma battery_bins r ys w t : extract_object vals (OIBattery r) = Ok ys -> bin_eq w t s (OIBattery r) -> 0 <= w_charge w (b_name (boi_cfg r)) t -> 0 <= w_discharge w (b_name (boi_cfg r)) t ->
  has ys (column (b_name (boi_cfg r)) "electric_charge_binary") (w_charge w (b_name (boi_cfg r)) t) /\ has ys (column (b_name (boi_cfg r)) "electric_discharge_binary") (w_discharge w (b_name (boi_cfg r)) t).
Proof.
  intros H [W1 W2] P1 P2. cbn [extract_object] in H. apply attr_cells_ok in H. unfold battery_attrs in H.
  inversion H as [|? y0 ? l0 K0 H0]; subst. inversion H0 as [|? y1 ? l1 (q1 & K1 & ->) H1]; subst. inversion H1 as [|? y2 ? l2 K2 H2]; subst. inversion H2 as [|? y3 ? l3 (q3 & K3 & ->) H3]; subst. cbn [fst snd] in *.
  apply (value_of_clip _ _ V) in K1, K3. subst. split.
  - exists (Qmax (s (v_id (boi_charge_bin r))) 0). split; [right; left; reflexivity|]. rewrite W1. now apply Qmax_pos.
  - exists (Qmax (s (v_id (boi_discharge_bin r))) 0). split; [right; right; right; left; reflexivity|]. rewrite W2. now apply Qmax_pos.
Qed.

Lemma charger_bins a kc (r : nat -> ev_oi) c ys : ea_cfg a = c -> (forall e, (e < n_events c)%nat -> pair_is a e (fst kc) (r e)) -> ev_charger_cells vals a kc = Ok ys ->
  let over g := Qsum (map (fun e => fv s (g (r e))) (seq 0 (n_events c))) in let col := column (column (ev_name c) (cg_name (snd kc))) in
  has ys (col "electric_charge_binary"%string) (over eoi_charge_bin) /\ has ys (col "electric_discharge_binary"%string) (over eoi_discharge_bin).
Proof.
  intros EC HP H. unfold ev_charger_cells in H. cbv zeta in H. rewrite EC in H. destruct (Nat.ltb (fst kc) (n_chargers c)); [|discriminate].
  apply rmap_ok in H. unfold ev_charger_attrs in H. cbv zeta.
  assert (forall at_ : nat -> nat -> fval, forall g : ev_oi -> fval, (forall e, (e < n_events c)%nat -> at_ e (fst kc) = g (r e)) ->
    forall q, sum_values vals (map (fun e => at_ e (fst kc)) (seq 0 (n_events c))) = Ok q -> q == Qsum (map (fun e => fv s (g (r e))) (seq 0 (n_events c)))) as G.
  { intros at_ g E q HQ. apply (sum_values_fv _ _ V) in HQ. rewrite HQ, map_map. apply Qsum_map_ext. intros e I. apply in_seq in I. rewrite E by lia. reflexivity. }
  inversion H as [|? y0 ? l0 K0 H0]; subst. inversion H0 as [|? y1 ? l1 K1 H1]; subst. inversion H1 as [|? y2 ? l2 K2 H2]; subst. inversion H2 as [|? y3 ? l3 K3 H3]; subst. cbn [fst snd] in *.
  rewrite rbind_ok in K1. destruct K1 as (q1 & E1 & K1). injection K1 as <-. rewrite rbind_ok in K3. destruct K3 as (q3 & E3 & K3). injection K3 as <-.
  unfold column.
  assert (forall x, ((ev_name (ea_cfg a) ++ "-" ++ cg_name (snd kc)) ++ "-" ++ x)%string = (ev_name (ea_cfg a) ++ "-" ++ cg_name (snd kc) ++ "-" ++ x)%string) as AS.
  { intros x. now rewrite !str_app_assoc. }
  rewrite !AS. split.
  - exists q1. split; [right; left; reflexivity|]. eapply G; [|exact E1]. intros e He. apply (HP e He).
  - exists q3. split; [right; right; right; left; reflexivity|]. eapply G; [|exact E3]. intros e He. apply (HP e He).
Qed.

Context (c : site_cfg) (assets : list asset) (fl : flags) (iv : interval_vars) (lo hi : nat) (cs : list constr) (P : program c assets fl iv lo hi cs).
Context (w : switches) (BE : bins_eq w s iv).
Context (EVN : forall e, In (AEVs e) assets -> contains "evs" (ev_name e) = true).

Lemma battery_row b t row ys : In (ABattery b) assets -> nth_error iv t = Some row -> extract_kind vals iv t KBattery = Ok ys -> 0 <= w_charge w (b_name b) t -> 0 <= w_discharge w (b_name b) t ->
  has ys (column (b_name b) "electric_charge_binary") (w_charge w (b_name b) t) /\ has ys (column (b_name b) "electric_discharge_binary") (w_discharge w (b_name b) t).
Proof.
  intros Ib E H P1 P2. unfold extract_kind, filter_objective_variables in H. rewrite (py_index_nat_ok _ _ _ E) in H. cbn [rbind] in H.
  rewrite rbind_ok in H. destruct H as (rows & H & H'). injection H' as <-.
  assert (exists xs, owns (ABattery b) t (sc_freq c) fl row xs) as (xs & (r & -> & EC & _) & IN & _) by (eapply row_owns; eauto; apply P).
  assert (In (OIBattery r) row) as Ir by (apply IN; now left). apply rmap_ok in H.
  assert (In (OIBattery r) (filter (matches (Some KBattery) None) row)) as If by (apply filter_In; split; auto).
  destruct (Forall2_in_l _ _ _ _ H If) as (l & Il & K). specialize (BE t row E). rewrite Forall_forall in BE. specialize (BE _ Ir).
  subst b. destruct (battery_bins r l w t K BE P1 P2) as [A B]. split; eapply has_concat; eauto.
Qed.
Lemma evs_bins b t row ys col q : In (AEVs b) assets -> nth_error iv t = Some row -> extract_evs vals (map asset_name assets) iv t = Ok ys -> In (col, q) (switch_columns w t (AEVs b)) -> has ys col q.
Proof.
  intros Ib E H Ic. unfold extract_evs in H. pose proof (BE t row E) as BR. rewrite Forall_forall in BR.
  assert (iv <> []) as NI by (intros X; rewrite X in E; destruct t; discriminate).
  pose proof (pr_fine _ _ _ _ _ _ _ P NI) as FN. rewrite Forall_forall in FN. destruct (FN _ Ib) as (_ & NE & NC).
  assert (exists xs, owns (AEVs b) t (sc_freq c) fl row xs) as (xs & (S0 & S1 & G & Sp & SH) & IN & FT) by (eapply row_owns; eauto; apply P).
  unfold filter_objective_variables at 1 in H. rewrite (py_index_nat_ok _ _ _ E) in H. cbn [rbind] in H.
  assert (forall e k, (e < n_events b)%nat -> (k < n_chargers b)%nat -> In (OIEv (G e k)) row) as I1.
  { intros e k He Hk. destruct SH as (-> & _). apply IN, in_app_iff. left. apply in_map, in_grid. eauto. }
  destruct (filter (matches (Some KEv) None) row) as [|x0 l0] eqn:EF.
  { exfalso. assert (In (OIEv (G 0%nat 0%nat)) []) as []. rewrite <- EF. apply filter_In. split; auto. }
  clear EF x0 l0.
  rewrite rbind_ok in H. destruct H as (pkg & H1 & H). rewrite rbind_ok in H. destruct H as (l1 & H2 & H). rewrite rbind_ok in H. destruct H as (pkg2 & H3 & H). rewrite rbind_ok in H. destruct H as (l2 & H4 & H). injection H as <-.
  pose proof (rmap_two _ _ _ _ _ H1 H2) as K1. pose proof (rmap_two _ _ _ _ _ H3 H4) as K2. apply rmap_ok in K1, K2.
  assert (In (ev_name b) (filter (contains "evs") (map asset_name assets))) as In_ by (apply filter_In; split; [apply (in_map asset_name _ (AEVs b) Ib)|now apply EVN]).
  destruct (evs_filters _ _ _ _ _ _ _ _ _ _ SH FT) as [M0 M1].
  cbn [switch_columns] in Ic. apply in_app_iff in Ic. destruct Ic as [Ic|Ic].
  - destruct (Forall2_in_l _ _ _ _ K1 In_) as (l & Il & K). cbv beta in K. rewrite rbind_ok in K. destruct K as (arr & K & K'). apply has_l. eapply has_concat; [exact Il|].
    apply (create_main _ _ _ S0 S1 G Sp t (sc_freq c) fl xs) in K; [|unfold filter_objective_variables; rewrite (py_index_nat_ok _ _ _ E); cbn [rbind]; now rewrite M0|exact SH].
    destruct K as (EC & _ & _ & HP & _). unfold ev_cells in K'. cbv zeta in K'. rewrite EC in K'. rewrite rbind_ok in K'. destruct K' as (y1 & Y1 & K'). rewrite rbind_ok in K'. destruct K' as (y2 & Y2 & K'). rewrite rbind_ok in K'. destruct K' as (y3 & Y3 & K'). injection K' as <-.
    apply has_l. apply in_flat_map in Ic. destruct Ic as ([k cc] & Ik & Ic). apply rmap_ok in Y1. destruct (Forall2_in_l _ _ _ _ Y1 Ik) as (y & Iy & Ky). eapply has_concat; [exact Iy|].
    apply enumerate_in in Ik. assert (k < n_chargers b)%nat as Hk by (eapply nth_error_lt2; eauto).
    destruct (charger_bins arr (k, cc) (fun e => G e k) b y EC ltac:(intros; apply HP; auto) Ky) as [A B]. cbn [fst snd] in *.
    assert (forall e, (e < n_events b)%nat -> fv s (eoi_charge_bin (G e k)) == w_ev_charge w (ev_name b) e k t /\ fv s (eoi_discharge_bin (G e k)) == w_ev_discharge w (ev_name b) e k t) as W.
    { intros e He. pose proof (BR _ (I1 e k He Hk)) as W. cbn [bin_eq] in W. cbv zeta in W. destruct (nth_error_lt _ _ He) as (ec & Ee). destruct (nth_error_lt _ _ Hk) as (cc' & Ek). destruct SH as (_ & _ & SE & _).
      destruct (SE _ _ _ _ Ee Ek) as (C1 & _ & C2 & _ & C3 & _). rewrite C1, C2, C3 in W. exact W. }
    cbn [In] in Ic. destruct Ic as [Ic|[Ic|[]]]; injection Ic as <- <-; [destruct A as (x & Ix & Ex)|destruct B as (x & Ix & Ex)]; exists x; (split; [exact Ix|]); rewrite Ex; unfold over_events; apply Qsum_map_ext; intros e Ie; apply in_seq in Ie; apply W; unfold n_events; lia.
  - destruct (Forall2_in_l _ _ _ _ K2 In_) as (l & Il & K). cbv beta in K. rewrite rbind_ok in K. destruct K as (arr & K & K'). apply has_r. eapply has_concat; [exact Il|].
    apply (create_spill _ _ _ S0 S1 G Sp t (sc_freq c) fl xs) in K; [|unfold filter_objective_variables; rewrite (py_index_nat_ok _ _ _ E); cbn [rbind]; now rewrite M1|exact SH].
    destruct K as (EC & L1 & _ & _ & HP & _). unfold ev_spill_cells in K'. rewrite EC in K'. destruct (ev_spill_chargers b) as [|cc [|? ?]] eqn:ES; try discriminate.
    unfold enumerate in K'. cbn [enum_from rmap] in K'. rewrite rbind_ok in K'. destruct K' as (y1 & Y1 & K'). rewrite rbind_ok in Y1. destruct Y1 as (y & Ky & Y1). cbn [rbind] in Y1. injection Y1 as <-. injection K' as <-. cbn [List.concat]. rewrite app_nil_r.
    destruct (charger_bins arr (0%nat, cc) (fun e => Sp e 0%nat) b y EC HP Ky) as [A B]. cbn [fst snd] in *.
    assert (forall e, (e < n_events b)%nat -> fv s (eoi_charge_bin (Sp e 0%nat)) == w_spill_charge w (ev_name b) e t /\ fv s (eoi_discharge_bin (Sp e 0%nat)) == 0) as W.
    { intros e He. destruct (nth_error_lt _ _ He) as (ec & Ee). destruct SH as (EX & _ & _ & SSp). specialize (SSp e ec 0%nat cc Ee). rewrite ES in SSp. specialize (SSp eq_refl). destruct SSp as (C1 & _ & C2 & _ & _ & _ & _ & (_ & D) & _).
      assert (In (OIEvSpill (Sp e 0%nat)) row) as I2 by (rewrite EX in IN; apply IN, in_app_iff; right; apply in_map, in_grid; exists e, 0%nat; rewrite ?ES; cbn; auto).
      pose proof (BR _ I2) as W. cbn [bin_eq] in W. rewrite C1, C2 in W. split; [exact W|]. rewrite D. reflexivity. }
    cbn [flat_map app In] in Ic. destruct Ic as [Ic|[Ic|[]]]; injection Ic as <- <-; [destruct A as (x & Ix & Ex)|destruct B as (x & Ix & Ex)]; exists x; (split; [exact Ix|]); rewrite Ex.
    + unfold over_events. apply Qsum_map_ext. intros e Ie. apply in_seq in Ie. apply W. unfold n_events. lia.
    + apply Qsum_map_zero. intros e Ie. apply in_seq in Ie. apply W. lia.
Qed.
End bins.
