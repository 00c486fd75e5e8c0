(** * SemCells: the rows of the results table (proofs) *)
From Verif Require Import Base Pulp Params Optimizer Types Assets EVs Site Extract Emit Prim Spec SpecReport SpecRun Layout Rows Sem SemEv SemSite SemProg SemObj.
Open Scope Q_scope.

Definition cell_is (x : string * cell) (y : string * option Q) : Prop :=
  fst x = fst y /\ exists q, snd x = Some q /\ match snd y with Some p => q == p | None => True end.
Definition row_is (l : list (string * cell)) (l' : list (string * option Q)) : Prop := Forall2 cell_is l l'.

Lemma row_is_app a a' b b' : row_is a a' -> row_is b b' -> row_is (a ++ b)%list (a' ++ b')%list.
Proof. apply Forall2_app. Qed.
Lemma row_is_nil : row_is [] [].
Proof. constructor. Qed.
Lemma cell_some n q p : q == p -> cell_is (n, Some q) (n, Some p).
Proof. intros H. split; [reflexivity|]. exists q. split; auto. Qed.
Lemma cell_any n q : cell_is (n, Some q) (n, None).
Proof. split; [reflexivity|]. exists q. split; [reflexivity|exact Logic.I]. Qed.
Lemma row_is_concat {A} (F : A -> res (list (string * cell))) (g : A -> list (string * option Q)) l ls :
  rmap F l = Ok ls -> (forall x y, In x l -> F x = Ok y -> row_is y (g x)) -> row_is (List.concat ls) (flat_map g l).
Proof.
  revert ls. induction l as [|x l IH]; intros ls H K; cbn [rmap] in H.
  - injection H as <-. constructor.
  - rewrite rbind_ok in H. destruct H as (y & H1 & H). rewrite rbind_ok in H. destruct H as (ys & H2 & H). injection H as <-.
    cbn [List.concat flat_map]. apply row_is_app; [apply K; auto; now left|]. apply IH; auto. intros z w I. apply K. now right.
Qed.
Lemma rmap_row {A} (F : A -> res (string * cell)) (g : A -> string * option Q) l ys :
  rmap F l = Ok ys -> (forall x y, In x l -> F x = Ok y -> cell_is y (g x)) -> row_is ys (map g l).
Proof.
  revert ys. induction l as [|x l IH]; intros ys H K; cbn [rmap] in H.
  - injection H as <-. constructor.
  - rewrite rbind_ok in H. destruct H as (y & H1 & H). rewrite rbind_ok in H. destruct H as (zs & H2 & H). injection H as <-.
    cbn [map]. constructor; [apply K; auto; now left|]. apply IH; auto. intros z w I. apply K. now right.
Qed.

Lemma str_app_assoc (a b c : string) : ((a ++ b) ++ c = a ++ b ++ c)%string.
Proof. induction a; cbn; congruence. Qed.

Section cells.
Context (vals : values) (s : assignment) (V : forall v x, vals v = Some x -> x = s (v_id v)).

Lemma value_of_fv f q : value_of vals f false = Ok q -> q = fv s f.
Proof.
  unfold value_of. destruct f as [v|x|z|]; cbn [fv].
  - destruct (vals v) eqn:E; cbn [of_option rbind]; [|discriminate]. intros [= <-]. now apply V.
  - cbn. congruence.
  - cbn. congruence.
  - discriminate.
Qed.
Lemma value_of_clip v q : value_of vals (FVar v) true = Ok q -> q = Qmax (s (v_id v)) 0.
Proof. unfold value_of. destruct (vals v) eqn:E; cbn [of_option rbind]; [|discriminate]. intros [= <-]. now rewrite (V _ _ E). Qed.
Lemma Qmax_pos x : 0 <= x -> Qmax x 0 == x.
Proof. apply Q.max_l. Qed.
Lemma sum_values_fv fs q : sum_values vals fs = Ok q -> q == Qsum (map (fv s) fs).
Proof.
  unfold sum_values. rewrite rbind_ok. intros (qs & H & [= <-]). revert qs H. induction fs as [|f fs IH]; intros qs H; cbn [rmap] in H.
  - injection H as <-. reflexivity.
  - rewrite rbind_ok in H. destruct H as (y & H1 & H). rewrite rbind_ok in H. destruct H as (zs & H2 & H). injection H as <-.
    cbn [map Qsum fold_right]. apply value_of_fv in H1. subst y. specialize (IH zs H2). unfold Qsum in IH. rewrite IH. reflexivity.
Qed.

(** plain objects *)
Definition plain_asset (a : asset) : bool := match a with AEVs _ => false | _ => true end.
Definition kind_of_asset (a : asset) : kind :=
  match a with ABattery _ => KBattery | ABoiler _ => KBoiler | ACHP _ => KCHP | AEVs _ => KEv | AHeatPump _ => KHeatPump
             | ARenewable _ => KRenewable | ASpill _ => KSpill | AValve _ => KValve end.

Ltac attr_split H :=
  repeat (first [ rewrite rbind_ok in H; let q := fresh "q" in let E := fresh "E" in destruct H as (q & E & H)
                | match type of H with Ok _ = Ok _ => injection H as <- end ]).
Lemma attr_cells_ok name clip attrs ys : attr_cells vals name clip attrs = Ok ys ->
  Forall2 (fun a y => exists q, value_of vals (snd a) clip = Ok q /\ y = ((name ++ "-" ++ fst a)%string, Some q)) attrs ys.
Proof.
  unfold attr_cells. intros H. apply rmap_ok in H. eapply Forall2_impl; [|exact H]. cbv beta. intros a y _ K. rewrite rbind_ok in K. destruct K as (q & K1 & K2). injection K2 as <-. eauto.
Qed.
Lemma attr_cells_raw_ok name attrs ys : attr_cells_raw vals name attrs = Ok ys ->
  Forall2 (fun a y => exists v, snd a = FVar v /\ y = ((name ++ "-" ++ fst a)%string, vals v)) attrs ys.
Proof.
  unfold attr_cells_raw. intros H. apply rmap_ok in H. eapply Forall2_impl; [|exact H]. cbv beta. intros a y _ K. rewrite rbind_ok in K. destruct K as (q & K1 & K2). injection K2 as <-.
  unfold dot_value in K1. destruct (snd a) as [v|?|?|]; try discriminate. injection K1 as <-. eauto.
Qed.
Ltac f2_split H :=
  repeat match type of H with
  | Forall2 _ (_ :: _) _ => let y := fresh "y" in let ys := fresh "ys" in let K := fresh "K" in
      inversion H as [|? y ? ys K H']; subst; clear H; rename H' into H; cbn [fst snd] in K;
      let q := fresh "q" in let E := fresh "E" in destruct K as (q & E & ->)
  | Forall2 _ [] _ => inversion H; subst; clear H
  end.

Ltac cells tac := repeat (apply Forall2_cons; [split; [reflexivity|eexists; split; [reflexivity|cbn [fst snd]; tac]]|]); apply Forall2_nil.

(** the battery numbers are clipped at zero when extracted: no effect on these *)
Definition clip_ok (d : dispatch) (t : nat) (a : asset) : Prop :=
  match a with
  | ABattery b => let q := d_qty d (b_name b) in 0 <= q Charge t /\ 0 <= q Discharge t /\ 0 <= q Loss t /\ 0 <= q Soc0 t /\ 0 <= q Soc1 t
  | _ => True
  end.
Lemma at_clip a f fl d t : asset_at a f fl d t -> clip_ok d t a.
Proof. destruct a; cbn [clip_ok]; auto. cbn [asset_at]. unfold battery_at, between. cbv zeta. tauto. Qed.

Lemma plain_cells a t f fl xs d x ys : plain_asset a = true -> asset_shape a t f fl xs -> Forall (oi_val d t s) xs -> clip_ok d t a ->
  (forall v, In v (must_vars x) -> vals v <> None) ->
  In x xs -> extract_object vals x = Ok ys -> row_is ys (asset_cells d t a).
Proof.
  intros PL SH VL AT OC I H. rewrite Forall_forall in VL. specialize (VL x I).
  destruct a as [b|b|b|b|b|b|n|n]; try discriminate; cbn [asset_shape] in SH; destruct SH as (r & -> & SH); destruct I as [<-|[]]; cbn [extract_object] in H; cbn [oi_val] in VL; cbv zeta in VL; unfold vset in VL.
  - apply attr_cells_ok in H. unfold battery_attrs in H. f2_split H. destruct SH as (EC & _); rewrite EC in *. cbn [clip_ok] in AT. cbv zeta in AT.
    destruct VL as (V1 & V2 & V3 & V4 & V5).
    repeat match goal with E : value_of _ _ true = Ok _ |- _ => apply value_of_clip in E; subst end.
    rewrite V1, V2, V3, V4, V5. unfold asset_cells, column. cbn [asset_name].
    cells ltac:(first [exact Logic.I|apply Qmax_pos; tauto]).
  - apply attr_cells_raw_ok in H. unfold boiler_attrs in H. f2_split H. destruct SH as (EC & _); rewrite EC in *. destruct VL as (V1 & V2).
    repeat match goal with E : FVar _ = FVar _ |- _ => injection E as <- end.
    unfold asset_cells, column. cbn [asset_name]. cbn [must_vars] in OC.
    destruct (vals (kboi_ht r)) as [q1|] eqn:Q1; [|exfalso; eapply OC; [|exact Q1]; cbn; auto]. destruct (vals (kboi_gas r)) as [q2|] eqn:Q2; [|exfalso; eapply OC; [|exact Q2]; cbn; auto].
    apply V in Q1, Q2. subst. rewrite V1, V2. cells ltac:(reflexivity).
  - apply attr_cells_raw_ok in H. unfold chp_attrs in H. f2_split H. destruct SH as (EC & _); rewrite EC in *. destruct VL as (V1 & V2 & V3 & V4).
    repeat match goal with E : FVar _ = FVar _ |- _ => injection E as <- end.
    unfold asset_cells, column. cbn [asset_name]. cbn [must_vars] in OC.
    destruct (vals (coi_elec r)) as [q1|] eqn:Q1; [|exfalso; eapply OC; [|exact Q1]; cbn; auto]. destruct (vals (coi_gas r)) as [q2|] eqn:Q2; [|exfalso; eapply OC; [|exact Q2]; cbn; auto].
    destruct (vals (coi_ht r)) as [q3|] eqn:Q3; [|exfalso; eapply OC; [|exact Q3]; cbn; auto]. destruct (vals (coi_lt r)) as [q4|] eqn:Q4; [|exfalso; eapply OC; [|exact Q4]; cbn; auto].
    apply V in Q1, Q2, Q3, Q4. subst. rewrite V1, V2, V3, V4. cells ltac:(reflexivity).
  - apply attr_cells_ok in H. unfold hp_attrs in H. f2_split H. destruct SH as (EC & _); rewrite EC in *. destruct VL as (V1 & V2 & V3).
    repeat match goal with E : value_of _ _ false = Ok _ |- _ => apply value_of_fv in E; subst end. cbn [fv]. rewrite V1, V2, V3.
    unfold asset_cells, column. cbn [asset_name]. cells ltac:(reflexivity).
  - apply attr_cells_ok in H. unfold rg_attrs in H. f2_split H. destruct SH as (EC & _); rewrite EC in *.
    repeat match goal with E : value_of _ _ false = Ok _ |- _ => apply value_of_fv in E; subst end. cbn [fv]. rewrite VL.
    unfold asset_cells, column. cbn [asset_name]. cells ltac:(reflexivity).
  - apply attr_cells_ok in H. unfold spill_attrs in H. f2_split H. destruct SH as (EC & _); rewrite EC in *. destruct VL as (V1 & V2 & V3 & V4).
    repeat match goal with E : value_of _ _ false = Ok _ |- _ => apply value_of_fv in E; subst end. cbn [fv electric_generation_mwh electric_load_mwh high_temperature_generation_mwh low_temperature_generation_mwh high_temperature_load_mwh low_temperature_load_mwh gas_consumption_mwh]. rewrite V1, V2, V3, V4.
    unfold asset_cells, column. cbn [asset_name]. cells ltac:(reflexivity).
  - apply attr_cells_ok in H. unfold valve_attrs in H. f2_split H. destruct SH as (EC & _); rewrite EC in *. destruct VL as (V1 & V2).
    repeat match goal with E : value_of _ _ false = Ok _ |- _ => apply value_of_fv in E; subst end. cbn [fv]. rewrite V1, V2.
    unfold asset_cells, column. cbn [asset_name]. cells ltac:(reflexivity).
Qed.

(** electric vehicles *)
Lemma charger_cells_ok a kc (r : nat -> ev_oi) c ys : ea_cfg a = c ->
  (forall e, (e < n_events c)%nat -> pair_is a e (fst kc) (r e)) ->
  ev_charger_cells vals a kc = Ok ys ->
  row_is ys (let over g := Qsum (map (fun e => fv s (g (r e))) (seq 0 (n_events c))) in
             let col := column (column (ev_name c) (cg_name (snd kc))) in
             [ (col "electric_charge_mwh", Some (over eoi_charge)); (col "electric_charge_binary", None);
               (col "electric_discharge_mwh", Some (over eoi_discharge)); (col "electric_discharge_binary", None);
               (col "electric_loss_mwh", Some (over eoi_loss)) ])%string.
Proof.
  intros EC HP H. unfold ev_charger_cells in H. cbv zeta in H. rewrite EC in H. destruct (Nat.ltb (fst kc) (n_chargers c)); [|discriminate].
  apply rmap_ok in H. unfold ev_charger_attrs in H. cbv zeta.
  assert (forall at_ : nat -> nat -> fval, forall g : ev_oi -> fval, (forall e, (e < n_events c)%nat -> at_ e (fst kc) = g (r e)) ->
    forall q, sum_values vals (map (fun e => at_ e (fst kc)) (seq 0 (n_events c))) = Ok q -> q == Qsum (map (fun e => fv s (g (r e))) (seq 0 (n_events c)))) as G.
  { intros at_ g E q HQ. apply sum_values_fv in HQ. rewrite HQ, map_map. apply Qsum_map_ext. intros e I. apply in_seq in I. rewrite E by lia. reflexivity. }
  repeat match type of H with
  | Forall2 _ (_ :: _) _ => let y := fresh "y" in let zs := fresh "zs" in let K := fresh "K" in
      inversion H as [|? y ? zs K H']; subst; clear H; rename H' into H; cbn [fst snd] in K;
      let q := fresh "q" in let E := fresh "E" in rewrite rbind_ok in K; destruct K as (q & E & K); injection K as <-
  | Forall2 _ [] _ => inversion H; subst; clear H
  end.
  unfold column.
  assert (forall x, ((ev_name (ea_cfg a) ++ "-" ++ cg_name (snd kc)) ++ "-" ++ x)%string = (ev_name (ea_cfg a) ++ "-" ++ cg_name (snd kc) ++ "-" ++ x)%string) as AS.
  { intros x. now rewrite !str_app_assoc. }
  rewrite !AS. cells ltac:(first [exact Logic.I | (eapply G; [|eassumption]; intros e He; destruct (HP e He) as (P1 & P2 & P3 & P4 & P5); assumption)]).
Qed.
Lemma event_cells_ok a ee (r : nat -> ev_oi) c ys : ea_cfg a = c ->
  (forall k, (k < n_chargers c)%nat -> pair_is a (fst ee) k (r k)) ->
  ev_event_cells vals a ee = Ok ys ->
  row_is ys (let over g := Qsum (map (fun k => fv s (g (r k))) (seq 0 (n_chargers c))) in
             let col := column (column (ev_name c) (ce_name (snd ee))) in
             [ (col "electric_charge_mwh", Some (over eoi_charge));
               (col "electric_discharge_mwh", Some (over eoi_discharge));
               (col "electric_loss_mwh", Some (over eoi_loss)) ])%string.
Proof.
  intros EC HP H. unfold ev_event_cells in H. cbv zeta in H. rewrite EC in H.
  apply rmap_ok in H. unfold ev_event_attrs in H. cbv zeta.
  assert (forall at_ : nat -> nat -> fval, forall g : ev_oi -> fval, (forall k, (k < n_chargers c)%nat -> at_ (fst ee) k = g (r k)) ->
    forall q, sum_values vals (map (fun k => at_ (fst ee) k) (seq 0 (n_chargers c))) = Ok q -> q == Qsum (map (fun k => fv s (g (r k))) (seq 0 (n_chargers c)))) as G.
  { intros at_ g E q HQ. apply sum_values_fv in HQ. rewrite HQ, map_map. apply Qsum_map_ext. intros e I. apply in_seq in I. rewrite E by lia. reflexivity. }
  repeat match type of H with
  | Forall2 _ (_ :: _) _ => let y := fresh "y" in let zs := fresh "zs" in let K := fresh "K" in
      inversion H as [|? y ? zs K H']; subst; clear H; rename H' into H; cbn [fst snd] in K;
      let q := fresh "q" in let E := fresh "E" in rewrite rbind_ok in K; destruct K as (q & E & K); injection K as <-
  | Forall2 _ [] _ => inversion H; subst; clear H
  end.
  unfold column.
  assert (forall x, ((ev_name (ea_cfg a) ++ "-" ++ ce_name (snd ee)) ++ "-" ++ x)%string = (ev_name (ea_cfg a) ++ "-" ++ ce_name (snd ee) ++ "-" ++ x)%string) as AS.
  { intros x. now rewrite !str_app_assoc. }
  rewrite !AS. cells ltac:(first [exact Logic.I | (eapply G; [|eassumption]; intros e He; destruct (HP e He) as (P1 & P2 & P3 & P4 & P5); assumption)]).
Qed.
Lemma soc_cells_ok a attr (g : nat -> fval) (S : nat -> lpvar) c ys : ea_cfg a = c ->
  (forall e, (e < n_events c)%nat -> g e = FVar (S e) /\ vals (S e) <> None) ->
  ev_soc_cells vals a (attr, g) = Ok ys ->
  row_is ys (map (fun e => (column (column (column (ev_name c) "charge-event") (show e)) attr, Some (s (v_id (S e))))) (seq 0 (n_events c))).
Proof.
  intros EC HP H. unfold ev_soc_cells in H. cbv zeta in H. rewrite EC in H. eapply rmap_row; [exact H|]. cbv beta. cbn [fst snd]. intros e y I K.
  apply in_seq in I. destruct (HP e ltac:(lia)) as [G N]. rewrite G in K. cbn [dot_value rbind] in K. injection K as <-.
  unfold column. split; cbn [fst snd]; [now rewrite !str_app_assoc|]. destruct (vals (S e)) as [q|] eqn:E; [|congruence]. exists q. split; auto. rewrite (V _ _ E). reflexivity.
Qed.

Lemma row_is_eq l a b : row_is l a -> Forall2 (fun x y : string * option Q => fst x = fst y /\ match snd x, snd y with Some p, Some q => p == q | None, None => True | _, _ => False end) a b -> row_is l b.
Proof.
  intros H. revert b. induction H as [|x y l a (E & q & Q1 & Q2) H IH]; intros b K; inversion K as [|? z ? b' (E' & Q3) K']; subst; constructor.
  - split; [congruence|]. exists q. split; auto. destruct (snd y), (snd z); try tauto. rewrite Q2. exact Q3.
  - now apply IH.
Qed.
Ltac eqcells tac := repeat (apply Forall2_cons; [split; [reflexivity|cbn [fst snd]; tac]|]); apply Forall2_nil.

Lemma ev_main_ok a c t f fl xs S0 S1 E Sp d ys : evs_shape c t f fl xs S0 S1 E Sp -> Forall (oi_val d t s) xs -> array_main c S0 S1 E a ->
  (forall e, (e < n_events c)%nat -> vals (S0 e) <> None /\ vals (S1 e) <> None) ->
  ev_cells vals a = Ok ys -> row_is ys (ev_main_cells d t c).
Proof.
  intros SH VL (EC & N1 & N2 & HP & HS) OC H. destruct (evs_vals _ _ _ _ _ _ _ _ _ _ _ SH VL) as [W _].
  unfold ev_cells in H. cbv zeta in H. rewrite EC in H.
  rewrite rbind_ok in H. destruct H as (l1 & H1 & H). rewrite rbind_ok in H. destruct H as (l2 & H2 & H). rewrite rbind_ok in H. destruct H as (l3 & H3 & H). injection H as <-.
  unfold ev_main_cells. repeat apply row_is_app.
  - eapply row_is_concat; [exact H1|]. intros [k cc] y I K. apply enumerate_in in I. assert (k < n_chargers c)%nat as Hk by (eapply nth_error_lt2; eauto).
    eapply row_is_eq; [eapply (charger_cells_ok a (k, cc) (fun e => E e k) c); eauto|]. cbv zeta. unfold ev_charger_report. cbv zeta. cbn [fst snd].
    eqcells ltac:(first [exact Logic.I|apply Qsum_map_ext; intros e Ie; apply in_seq in Ie; destruct (W e k ltac:(unfold n_events in *; lia) Hk) as (W1 & W2 & W3 & _); (rewrite W1 || rewrite W2 || rewrite W3); reflexivity]).
  - eapply row_is_concat; [exact H2|]. intros [e ec] y I K. apply enumerate_in in I. assert (e < n_events c)%nat as He by (eapply nth_error_lt2; eauto).
    eapply row_is_eq; [eapply (event_cells_ok a (e, ec) (fun k => E e k) c); eauto|]. cbv zeta. unfold ev_event_report. cbv zeta. cbn [fst snd].
    eqcells ltac:(first [exact Logic.I|apply Qsum_map_ext; intros k Ik; apply in_seq in Ik; destruct (W e k He ltac:(unfold n_chargers in *; lia)) as (W1 & W2 & W3 & _); (rewrite W1 || rewrite W2 || rewrite W3); reflexivity]).
  - cbn [rmap] in H3. rewrite rbind_ok in H3. destruct H3 as (y1 & K1 & H3). rewrite rbind_ok in H3. destruct H3 as (y2 & K2 & H3). injection H3 as <-.
    rewrite rbind_ok in K2. destruct K2 as (y3 & K2 & K3). injection K3 as <-. cbn [List.concat]. rewrite app_nil_r. unfold ev_soc_report. cbv zeta.
    apply row_is_app.
    + eapply row_is_eq; [eapply (soc_cells_ok a _ _ S0 c); eauto; intros e He; split; [apply HS|apply OC]; auto|].
      apply Forall2_map_lr. intros e Ie. apply in_seq in Ie. cbn [fst snd]. split; auto. destruct (W e 0%nat ltac:(unfold n_events in *; lia) N2) as (_ & _ & _ & W4 & _). rewrite W4. reflexivity.
    + eapply row_is_eq; [eapply (soc_cells_ok a _ _ S1 c); eauto; intros e He; split; [apply HS|apply OC]; auto|].
      apply Forall2_map_lr. intros e Ie. apply in_seq in Ie. cbn [fst snd]. split; auto. destruct (W e 0%nat ltac:(unfold n_events in *; lia) N2) as (_ & _ & _ & _ & W4). rewrite W4. reflexivity.
Qed.
Lemma ev_spill_ok a c t f fl xs S0 S1 E Sp d ys : evs_shape c t f fl xs S0 S1 E Sp -> Forall (oi_val d t s) xs -> array_spill c Sp a ->
  ev_spill_cells vals a = Ok ys -> row_is ys (ev_spill_columns d t c).
Proof.
  intros SH VL (EC & L1 & N1 & N2 & HP & HZ) H. destruct (evs_vals _ _ _ _ _ _ _ _ _ _ _ SH VL) as [_ W].
  unfold ev_spill_cells in H. rewrite EC in H. unfold ev_spill_columns. destruct (ev_spill_chargers c) as [|cc [|? ?]] eqn:ES; try discriminate.
  cbn [enumerate enum_from flat_map rmap] in *. unfold enumerate in H. cbn [enum_from rmap] in H.
  rewrite rbind_ok in H. destruct H as (l1 & H1 & H). rewrite rbind_ok in H1. destruct H1 as (y & K & H1). cbn [rbind] in H1. injection H1 as <-. injection H as <-. cbn [List.concat]. rewrite !app_nil_r.
  eapply row_is_eq; [eapply (charger_cells_ok a (0%nat, cc) (fun e => Sp e 0%nat) c); eauto|]. cbv zeta. unfold ev_spill_report. cbv zeta. cbn [fst snd].
  destruct SH as (_ & _ & _ & SSp). assert (forall e, (e < n_events c)%nat -> fv s (eoi_discharge (Sp e 0%nat)) == 0) as Z.
  { intros e He. destruct (nth_error_lt _ _ He) as (ec & Ee). specialize (SSp e ec 0%nat cc Ee). rewrite ES in SSp. specialize (SSp eq_refl). destruct SSp as (_ & _ & _ & _ & _ & _ & _ & (D & _) & _). cbn in D. rewrite D. reflexivity. }
  eqcells ltac:(first [exact Logic.I|apply Qsum_map_ext; intros e Ie; apply in_seq in Ie; destruct (W e ltac:(unfold n_events in *; lia) ltac:(rewrite ?ES; cbn; lia)) as (W1 & W2); (rewrite W1 || rewrite W2); reflexivity
    | (transitivity (Qsum (map (fun _ : nat => 0) (seq 0 (n_events c)))); [apply Qsum_map_ext; intros e Ie; apply in_seq in Ie; apply Z; unfold n_events in *; lia|apply Qsum_map_zero; reflexivity])]).
Qed.
End cells.
