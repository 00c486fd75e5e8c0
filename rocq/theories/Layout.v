(** * Layout: what the one-interval objects of a site look like (proofs) *)
From Verif Require Import Base Pulp Params Optimizer Types Assets EVs Site Emit Prim Spec SpecSwitch.
Open Scope Q_scope.

(** ** Variables with known bounds *)
Definition cont (v : lpvar) (lo up : option Q) : Prop := v_low v = lo /\ v_up v = up /\ v_int v = false.

Lemma cont_var_ok s v lo up : cont v lo up ->
  (var_ok s v <-> match lo with Some q => q <= s (v_id v) | None => True end
                  /\ match up with Some q => s (v_id v) <= q | None => True end).
Proof. intros (A & B & C). now apply var_ok_cont. Qed.
Lemma binary_var_ok s v : is_binary_var v -> (var_ok s v <-> s (v_id v) == 0 \/ s (v_id v) == 1).
Proof. intros (A & B & C). now apply var_ok_bin. Qed.

(** ** Shapes *)
Definition site_shape (c : site_cfg) (r : site_oi) : Prop :=
  tio_name r = "site"%string /\
  cont (tio_import r) (Some 0) (Some (mw_to_mwh (sc_freq c) (sc_import_limit_mw c))) /\
  cont (tio_export r) (Some 0) (Some (mw_to_mwh (sc_freq c) (sc_export_limit_mw c))) /\
  is_binary_var (tio_import_bin r) /\ is_binary_var (tio_export_bin r) /\
  tio_import_limit r = mw_to_mwh (sc_freq c) (sc_import_limit_mw c) /\
  tio_export_limit r = mw_to_mwh (sc_freq c) (sc_export_limit_mw c).
Definition battery_shape (c : battery_cfg) (f : freq) (r : battery_oi) : Prop :=
  boi_cfg r = c /\
  cont (boi_charge r) (Some 0) (Some (mw_to_mwh f (b_charge_power_mw c))) /\
  cont (boi_discharge r) (Some 0) (Some (mw_to_mwh f (b_discharge_power_mw c))) /\
  is_binary_var (boi_charge_bin r) /\ is_binary_var (boi_discharge_bin r) /\
  cont (boi_loss r) (Some 0) None /\
  cont (boi_initial r) (Some 0) (Some (b_capacity_mwh c)) /\
  cont (boi_final r) (Some 0) (Some (b_capacity_mwh c)).
Definition boiler_shape (c : boiler_cfg) (f : freq) (r : boiler_oi) : Prop :=
  kboi_cfg r = c /\
  cont (kboi_ht r) (Some (mw_to_mwh f (bo_min_mw c))) (Some (mw_to_mwh f (bo_max_mw c))) /\
  is_binary_var (kboi_bin r) /\ cont (kboi_gas r) (Some 0) None.
Definition chp_shape (c : chp_cfg) (f : freq) (r : chp_oi) : Prop :=
  coi_cfg r = c /\
  cont (coi_elec r) (Some 0) (Some (mw_to_mwh f (ch_max_mw c))) /\ is_binary_var (coi_bin r) /\
  cont (coi_gas r) (Some 0) None /\ cont (coi_ht r) (Some 0) None /\ cont (coi_lt r) (Some 0) None.
Definition hp_shape (c : hp_cfg) (f : freq) (r : hp_oi) : Prop :=
  hoi_cfg r = c /\
  cont (hoi_elec r) (Some 0) (Some (mw_to_mwh f (hp_power_mw c))) /\ is_binary_var (hoi_bin r) /\
  cont (hoi_lt r) (Some 0) None /\ cont (hoi_ht r) (Some 0) None.
Definition rg_shape (c : rg_cfg) (t : nat) (r : rg_oi) : Prop :=
  roi_cfg r = c /\ exists avail, nth_error (rg_available_mwh c) t = Some avail /\
  cont (roi_elec r) (Some (avail * rg_lower_pct c)) (Some avail).
Definition spill_shape (n : string) (r : spill_oi) : Prop :=
  soi_name r = n /\ cont (soi_elec_gen r) (Some 0) None /\ cont (soi_elec_load r) (Some 0) None /\
  cont (soi_ht_gen r) (Some 0) None /\ cont (soi_lt_load r) (Some 0) None.
Definition valve_shape (n : string) (r : valve_oi) : Prop :=
  voi_name r = n /\ cont (voi_ht_load r) (Some 0) None /\ cont (voi_lt_gen r) (Some 0) None.

Definition charge_shape (c : evs_cfg) (t : nat) (f : freq) (fl : flags) (e : nat) (cc : charger_cfg) (r : ev_oi) : Prop :=
  (exists x b, eoi_charge r = FVar x /\ eoi_charge_bin r = FVar b /\
      cont x (Some 0) (Some (mw_to_mwh f (cg_max_mw cc))) /\ is_binary_var b /\
      (limit_charge_variables_to_valid_events fl = true -> exists ce, event_at (ev_events c) t e = Ok ce /\ ce == 1)) \/
  (eoi_charge r = FFloat 0 /\ eoi_charge_bin r = FInt 0 /\ limit_charge_variables_to_valid_events fl = true /\
     exists ce, event_at (ev_events c) t e = Ok ce /\ ~ ce == 1).
Definition discharge_shape (f : freq) (on : bool) (cc : charger_cfg) (r : ev_oi) : Prop :=
  if on then exists x b, eoi_discharge r = FVar x /\ eoi_discharge_bin r = FVar b /\
      cont x (Some 0) (Some (mw_to_mwh f (cg_max_mw cc))) /\ is_binary_var b
  else eoi_discharge r = FFloat 0 /\ eoi_discharge_bin r = FInt 0.
Definition pair_shape (c : evs_cfg) (t : nat) (f : freq) (fl : flags) (disc : bool) (e : nat) (ec : charge_event_cfg)
    (soc0 soc1 : fval) (k : nat) (cc : charger_cfg) (r : ev_oi) : Prop :=
  eoi_cfg r = c /\ eoi_i r = t /\ eoi_event r = e /\ eoi_event_cfg r = ec /\ eoi_charger r = k /\ eoi_charger_cfg r = cc /\
  charge_shape c t f fl e cc r /\ discharge_shape f (disc && allow_evs_discharge fl) cc r /\
  (exists v, eoi_loss r = FVar v /\ cont v (Some 0) None) /\
  eoi_soc0 r = soc0 /\ eoi_soc1 r = soc1.

Definition grid {A} (E : nat -> nat -> A) (n m : nat) : list A := flat_map (fun e => map (E e) (seq 0 m)) (seq 0 n).

Definition evs_shape (c : evs_cfg) (t : nat) (f : freq) (fl : flags) (xs : list oneint)
    (S0 S1 : nat -> lpvar) (E Sp : nat -> nat -> ev_oi) : Prop :=
  xs = (map OIEv (grid E (n_events c) (n_chargers c))
        ++ map OIEvSpill (grid Sp (n_events c) (List.length (ev_spill_chargers c))))%list /\
  (forall e ec, nth_error (ev_event_cfgs c) e = Some ec ->
     cont (S0 e) (Some 0) (Some (ce_capacity_mwh ec)) /\ cont (S1 e) (Some 0) (Some (ce_capacity_mwh ec))) /\
  (forall e ec k cc, nth_error (ev_event_cfgs c) e = Some ec -> nth_error (ev_chargers c) k = Some cc ->
     pair_shape c t f fl true e ec (FVar (S0 e)) (FVar (S1 e)) k cc (E e k)) /\
  (forall e ec k cc, nth_error (ev_event_cfgs c) e = Some ec -> nth_error (ev_spill_chargers c) k = Some cc ->
     pair_shape c t f fl false e ec (FFloat 0) (FFloat 0) k cc (Sp e k)).

Definition asset_shape (a : asset) (t : nat) (f : freq) (fl : flags) (xs : list oneint) : Prop :=
  match a with
  | ABattery c => exists r, xs = [OIBattery r] /\ battery_shape c f r
  | ABoiler c => exists r, xs = [OIBoiler r] /\ boiler_shape c f r
  | ACHP c => exists r, xs = [OICHP r] /\ chp_shape c f r
  | AEVs c => exists S0 S1 E Sp, evs_shape c t f fl xs S0 S1 E Sp
  | AHeatPump c => exists r, xs = [OIHeatPump r] /\ hp_shape c f r
  | ARenewable c => exists r, xs = [OIRenewable r] /\ rg_shape c t r
  | ASpill n => exists r, xs = [OISpill r] /\ spill_shape n r
  | AValve n => exists r, xs = [OIValve r] /\ valve_shape n r
  end.

(** ** Assignments that realise a dispatch *)
Definition ind (q : Q) : Q := if Qeq_bool q 0 then 0 else 1.
Definition vset (s : assignment) (v : lpvar) (q : Q) : Prop := s (v_id v) = q.
Definition fset (s : assignment) (f : fval) (q : Q) : Prop := match f with FVar v => s (v_id v) = q | _ => True end.
(** a dispatch and the switches *)
Record setting := mkSetting { st_d :> dispatch; st_w : switches }.
Definition oi_set (d : setting) (t : nat) (s : assignment) (x : oneint) : Prop :=
  match x with
  | OISite r => vset s (tio_import r) (d_import d t) /\ vset s (tio_export r) (d_export d t) /\
                vset s (tio_import_bin r) (w_import (st_w d) t) /\ vset s (tio_export_bin r) (w_export (st_w d) t)
  | OIBattery r => let q := d_qty d (b_name (boi_cfg r)) in
      vset s (boi_charge r) (q Charge t) /\ vset s (boi_discharge r) (q Discharge t) /\
      vset s (boi_charge_bin r) (w_charge (st_w d) (b_name (boi_cfg r)) t) /\ vset s (boi_discharge_bin r) (w_discharge (st_w d) (b_name (boi_cfg r)) t) /\
      vset s (boi_loss r) (q Loss t) /\ vset s (boi_initial r) (q Soc0 t) /\ vset s (boi_final r) (q Soc1 t)
  | OIBoiler r => let q := d_qty d (bo_name (kboi_cfg r)) in
      vset s (kboi_ht r) (q HtGen t) /\ vset s (kboi_gas r) (q Gas t) /\ vset s (kboi_bin r) (w_on (st_w d) (bo_name (kboi_cfg r)) t)
  | OICHP r => let q := d_qty d (ch_name (coi_cfg r)) in
      vset s (coi_elec r) (q ElecGen t) /\ vset s (coi_bin r) (w_on (st_w d) (ch_name (coi_cfg r)) t) /\ vset s (coi_gas r) (q Gas t) /\
      vset s (coi_ht r) (q HtGen t) /\ vset s (coi_lt r) (q LtGen t)
  | OIEv r => let nm := ev_name (eoi_cfg r) in let e := eoi_event r in let k := eoi_charger r in
      fset s (eoi_charge r) (d_ev_charge d nm e k t) /\ fset s (eoi_charge_bin r) (w_ev_charge (st_w d) nm e k t) /\
      fset s (eoi_discharge r) (d_ev_discharge d nm e k t) /\ fset s (eoi_discharge_bin r) (w_ev_discharge (st_w d) nm e k t) /\
      fset s (eoi_loss r) (d_ev_loss d nm e k t) /\
      fset s (eoi_soc0 r) (d_ev_soc0 d nm e t) /\ fset s (eoi_soc1 r) (d_ev_soc1 d nm e t)
  | OIEvSpill r => let nm := ev_name (eoi_cfg r) in let e := eoi_event r in
      fset s (eoi_charge r) (d_spill_charge d nm e t) /\ fset s (eoi_charge_bin r) (w_spill_charge (st_w d) nm e t) /\
      fset s (eoi_loss r) (d_spill_loss d nm e t)
  | OIHeatPump r => let q := d_qty d (hp_name (hoi_cfg r)) in
      vset s (hoi_elec r) (q ElecLoad t) /\ vset s (hoi_bin r) (w_on (st_w d) (hp_name (hoi_cfg r)) t) /\ vset s (hoi_lt r) (q LtLoad t) /\ vset s (hoi_ht r) (q HtGen t)
  | OIRenewable r => vset s (roi_elec r) (d_qty d (rg_name (roi_cfg r)) ElecGen t)
  | OISpill r => let q := d_qty d (soi_name r) in
      vset s (soi_elec_gen r) (q ElecGen t) /\ vset s (soi_elec_load r) (q ElecLoad t) /\
      vset s (soi_ht_gen r) (q HtGen t) /\ vset s (soi_lt_load r) (q LtLoad t)
  | OIValve r => let q := d_qty d (voi_name r) in
      vset s (voi_ht_load r) (q HtLoad t) /\ vset s (voi_lt_gen r) (q LtGen t)
  end.

(** the variables of an object *)
Definition oi_vars (x : oneint) : list lpvar :=
  match x with
  | OISite r => [tio_import r; tio_export r; tio_import_bin r; tio_export_bin r]
  | OIBattery r => [boi_charge r; boi_discharge r; boi_charge_bin r; boi_discharge_bin r; boi_loss r; boi_initial r; boi_final r]
  | OIBoiler r => [kboi_ht r; kboi_bin r; kboi_gas r]
  | OICHP r => [coi_elec r; coi_bin r; coi_gas r; coi_ht r; coi_lt r]
  | OIEv r | OIEvSpill r =>
      fvars (eoi_charge r) ++ fvars (eoi_charge_bin r) ++ fvars (eoi_discharge r) ++ fvars (eoi_discharge_bin r)
      ++ fvars (eoi_soc0 r) ++ fvars (eoi_soc1 r) ++ fvars (eoi_loss r)
  | OIHeatPump r => [hoi_elec r; hoi_bin r; hoi_lt r; hoi_ht r]
  | OIRenewable r => [roi_elec r]
  | OISpill r => [soi_elec_gen r; soi_elec_load r; soi_ht_gen r; soi_lt_load r]
  | OIValve r => [voi_ht_load r; voi_lt_gen r]
  end.

(** values of fresh identities can be chosen freely *)
Definition reach (lo hi : nat) (R : assignment -> Prop) : Prop :=
  exists tg : assignment, forall s, (forall id, (lo <= id < hi)%nat -> s id = tg id) -> R s.
Lemma reach_and lo mid hi (R1 R2 : assignment -> Prop) : (lo <= mid <= hi)%nat -> reach lo mid R1 -> reach mid hi R2 -> reach lo hi (fun s => R1 s /\ R2 s).
Proof.
  intros L (t1 & H1) (t2 & H2). exists (fun id => if (id <? mid)%nat then t1 id else t2 id). intros s H. split.
  - apply H1. intros id I. rewrite H by lia. destruct (Nat.ltb_spec id mid); [reflexivity|lia].
  - apply H2. intros id I. rewrite H by lia. destruct (Nat.ltb_spec id mid); [lia|reflexivity].
Qed.
Lemma reach_impl lo hi (R R' : assignment -> Prop) : (forall s, R s -> R' s) -> reach lo hi R -> reach lo hi R'.
Proof. intros H (t & K). exists t. auto. Qed.
Lemma reach_true lo hi (R : assignment -> Prop) : (forall s, R s) -> reach lo hi R.
Proof. intros H. exists (fun _ => 0). auto. Qed.

Definition tg (n : nat) (l : list Q) : assignment := fun id => nth (id - n) l 0.
Lemma tg_0 n q l : tg n (q :: l) n = q.
Proof. unfold tg. now rewrite Nat.sub_diag. Qed.
Lemma tg_S n q l m : (n <= m)%nat -> tg n (q :: l) (S m) = tg n l m.
Proof. intros H. unfold tg. replace (S m - n)%nat with (S (m - n)) by lia. reflexivity. Qed.

(** ** Allocating code *)
Definition alloc {A} (m : M A) (P : A -> Prop) (V : A -> list lpvar) (R : A -> assignment -> Prop) : Prop :=
  forall o a o', m o = Ok (a, o') ->
    (o_next o <= o_next o')%nat /\ o_cons o' = o_cons o /\ o_obj o' = o_obj o /\ P a /\
    (forall v, In v (V a) -> (o_next o <= v_id v < o_next o')%nat) /\
    reach (o_next o) (o_next o') (R a).

Lemma alloc_weaken {A} (m : M A) P V R (P' : A -> Prop) (V' : A -> list lpvar) (R' : A -> assignment -> Prop) :
  alloc m P V R -> (forall a, P a -> P' a) -> (forall a v, P a -> In v (V' a) -> In v (V a)) ->
  (forall a s, P a -> R a s -> R' a s) -> alloc m P' V' R'.
Proof.
  intros H HP HV HR o a o' E. destruct (H o a o' E) as (L & C & O & PP & VV & RR).
  splits; auto; eauto. eapply reach_impl; [|exact RR]. auto.
Qed.
Lemma alloc_forM {A B} (l : list A) (f : A -> M B) (P : A -> B -> Prop) (V : B -> list lpvar) (R : A -> B -> assignment -> Prop) :
  (forall x, In x l -> alloc (f x) (P x) V (R x)) ->
  alloc (forM l f) (fun ys => Forall2 P l ys) (fun ys => flat_map V ys)
        (fun ys s => Forall2 (fun x y => R x y s) l ys).
Proof.
  induction l; simpl; intros H o ys o' E.
  - minv E. splits; auto; [intros v []|]. apply reach_true. constructor.
  - minv E.
    match goal with H1 : f a o = Ok _ |- _ => destruct (H a (or_introl eq_refl) _ _ _ H1) as (L1 & C1 & O1 & P1 & V1 & R1) end.
    match goal with H1 : forM l f _ = Ok _ |- _ => destruct (IHl (fun x I => H x (or_intror I)) _ _ _ H1) as (L2 & C2 & O2 & P2 & V2 & R2) end.
    splits.
    + lia.
    + congruence.
    + congruence.
    + constructor; auto.
    + simpl. intros v I. apply in_app_iff in I. destruct I as [I|I]; [apply V1 in I|apply V2 in I]; lia.
    + eapply reach_impl; [|eapply reach_and; [|exact R1|exact R2]]; [|lia]. intros s [A1 A2]. constructor; auto.
Qed.

Ltac alloc_inv :=
  repeat match goal with
  | H : continuous _ _ _ _ = Ok _ |- _ => apply cont_ok in H; destruct H as [-> ->]
  | H : binary _ _ = Ok _ |- _ => apply bin_ok in H; destruct H as [-> ->]
  end; cbn [o_next o_cons o_obj] in *.
Ltac vars_range := cbn; intros v I; repeat (destruct I as [<-|I]; [cbn; lia|]); destruct I.
Ltac tg_solve := unfold vset; cbn [v_id]; match goal with H : forall id, _ -> _ = tg _ _ _ |- _ => rewrite H by lia end;
  rewrite ?tg_S by lia; apply tg_0.

Lemma site_alloc c i d : alloc (site_one_interval c i)
  (fun x => exists r, x = OISite r /\ site_shape c r) oi_vars (fun x s => oi_set d i s x).
Proof.
  intros o a o' H. unfold site_one_interval in H. minv H. alloc_inv.
  splits; auto; try lia.
  - eexists; split; [reflexivity|]. repeat split.
  - vars_range.
  - exists (tg (o_next o) [d_import d i; d_export d i; w_import (st_w d) i; w_export (st_w d) i]).
    intros s H. cbn [oi_set tio_import tio_export tio_import_bin tio_export_bin]. splits; tg_solve.
Qed.
Lemma battery_alloc c i f d : alloc (battery_one_interval c i f)
  (fun x => exists r, x = OIBattery r /\ battery_shape c f r) oi_vars (fun x s => oi_set d i s x).
Proof.
  intros o a o' H. unfold battery_one_interval in H. minv H. alloc_inv.
  splits; auto; try lia.
  - eexists; split; [reflexivity|]. repeat split.
  - vars_range.
  - set (q := d_qty d (b_name c)).
    exists (tg (o_next o) [q Charge i; q Discharge i; w_charge (st_w d) (b_name c) i; w_discharge (st_w d) (b_name c) i; q Loss i; q Soc0 i; q Soc1 i]).
    intros s H. cbn [oi_set boi_cfg boi_charge boi_discharge boi_charge_bin boi_discharge_bin boi_loss boi_initial boi_final].
    fold q. cbv zeta. splits; tg_solve.
Qed.
Lemma boiler_alloc c i f d : alloc (boiler_one_interval c i f)
  (fun x => exists r, x = OIBoiler r /\ boiler_shape c f r) oi_vars (fun x s => oi_set d i s x).
Proof.
  intros o a o' H. unfold boiler_one_interval in H. minv H. alloc_inv.
  splits; auto; try lia.
  - eexists; split; [reflexivity|]. repeat split.
  - vars_range.
  - set (q := d_qty d (bo_name c)).
    exists (tg (o_next o) [q HtGen i; w_on (st_w d) (bo_name c) i; q Gas i]).
    intros s H. cbn [oi_set kboi_cfg kboi_ht kboi_gas kboi_bin]. fold q. cbv zeta. splits; tg_solve.
Qed.
Lemma chp_alloc c i f d : alloc (chp_one_interval c i f)
  (fun x => exists r, x = OICHP r /\ chp_shape c f r) oi_vars (fun x s => oi_set d i s x).
Proof.
  intros o a o' H. unfold chp_one_interval in H. minv H. alloc_inv.
  splits; auto; try lia.
  - eexists; split; [reflexivity|]. repeat split.
  - vars_range.
  - set (q := d_qty d (ch_name c)).
    exists (tg (o_next o) [q ElecGen i; w_on (st_w d) (ch_name c) i; q Gas i; q HtGen i; q LtGen i]).
    intros s H. cbn [oi_set coi_cfg coi_elec coi_bin coi_gas coi_ht coi_lt]. fold q. cbv zeta. splits; tg_solve.
Qed.
Lemma hp_alloc c i f d : alloc (hp_one_interval c i f)
  (fun x => exists r, x = OIHeatPump r /\ hp_shape c f r) oi_vars (fun x s => oi_set d i s x).
Proof.
  intros o a o' H. unfold hp_one_interval in H. minv H. alloc_inv.
  splits; auto; try lia.
  - eexists; split; [reflexivity|]. repeat split.
  - vars_range.
  - set (q := d_qty d (hp_name c)).
    exists (tg (o_next o) [q ElecLoad i; w_on (st_w d) (hp_name c) i; q LtLoad i; q HtGen i]).
    intros s H. cbn [oi_set hoi_cfg hoi_elec hoi_bin hoi_lt hoi_ht]. fold q. cbv zeta. splits; tg_solve.
Qed.
Lemma rg_alloc c i d : alloc (rg_one_interval c i)
  (fun x => exists r, x = OIRenewable r /\ rg_shape c i r) oi_vars (fun x s => oi_set d i s x).
Proof.
  intros o a o' H. unfold rg_one_interval in H. minv H. alloc_inv.
  splits; auto; try lia.
  - eexists; split; [reflexivity|]. split; [reflexivity|].
    match goal with H : nth_res _ _ = Ok ?x |- _ => exists x; unfold nth_res in H; apply of_option_ok in H end.
    split; auto. repeat split.
  - vars_range.
  - exists (tg (o_next o) [d_qty d (rg_name c) ElecGen i]).
    intros s H. cbn [oi_set roi_elec roi_cfg]. tg_solve.
Qed.
Lemma spill_alloc n i d : alloc (spill_one_interval n i)
  (fun x => exists r, x = OISpill r /\ spill_shape n r) oi_vars (fun x s => oi_set d i s x).
Proof.
  intros o a o' H. unfold spill_one_interval in H. minv H. alloc_inv.
  splits; auto; try lia.
  - eexists; split; [reflexivity|]. repeat split.
  - vars_range.
  - set (q := d_qty d n). exists (tg (o_next o) [q ElecGen i; q HtGen i; q ElecLoad i; q LtLoad i]).
    intros s H. cbn [oi_set soi_name soi_elec_gen soi_elec_load soi_ht_gen soi_lt_load]. fold q. cbv zeta. splits; tg_solve.
Qed.
Lemma valve_alloc n i d : alloc (valve_one_interval n i)
  (fun x => exists r, x = OIValve r /\ valve_shape n r) oi_vars (fun x s => oi_set d i s x).
Proof.
  intros o a o' H. unfold valve_one_interval in H. minv H. alloc_inv.
  splits; auto; try lia.
  - eexists; split; [reflexivity|]. repeat split.
  - vars_range.
  - set (q := d_qty d n). exists (tg (o_next o) [q HtLoad i; q LtGen i]).
    intros s H. cbn [oi_set voi_name voi_ht_load voi_lt_gen]. fold q. cbv zeta. splits; tg_solve.
Qed.

(** ** EVs *)
Definition ev_own_vars (x : oneint) : list lpvar :=
  match x with
  | OIEv r | OIEvSpill r =>
      fvars (eoi_charge r) ++ fvars (eoi_charge_bin r) ++ fvars (eoi_discharge r) ++ fvars (eoi_discharge_bin r)
      ++ fvars (eoi_loss r)
  | _ => []
  end.
Definition ev_wrap (is_spill : bool) (r : ev_oi) : oneint := if is_spill then OIEvSpill r else OIEv r.
Definition ev_target (d : dispatch) (is_spill : bool) (nm : string) (e k t : nat) : Q * Q * Q :=
  if is_spill then (d_spill_charge d nm e t, 0, d_spill_loss d nm e t)
  else (d_ev_charge d nm e k t, d_ev_discharge d nm e k t, d_ev_loss d nm e k t).

Definition ev_bins (d : setting) (is_spill : bool) (nm : string) (e k t : nat) : Q * Q :=
  if is_spill then (w_spill_charge (st_w d) nm e t, 0) else (w_ev_charge (st_w d) nm e k t, w_ev_discharge (st_w d) nm e k t).

Lemma event_at_eq rows i e ce : event_at rows i e = Ok ce -> nth i (nth e rows []) 0 = ce.
Proof.
  unfold event_at, nth_res. destruct (nth_error rows e) eqn:E; [|discriminate]. rewrite of_option_ok. intros H.
  rewrite (nth_error_nth rows e [] E). apply (nth_error_nth l i 0 H).
Qed.

Lemma ev_pair_alloc c i f fl disc is_spill e ec soc0 soc1 k cc d :
  alloc (ev_pair c i f fl disc is_spill e ec soc0 soc1 k cc)
    (fun x => exists r, x = ev_wrap is_spill r /\ pair_shape c i f fl disc e ec soc0 soc1 k cc r)
    ev_own_vars
    (fun x s => fset s soc0 (d_ev_soc0 (st_d d) (ev_name c) e i) -> fset s soc1 (d_ev_soc1 d (ev_name c) e i) -> oi_set d i s x).
Proof.
  intros o a o' H. unfold ev_pair in H. minv H.
  set (nm := ev_name c).
  set (T := ev_target d is_spill nm e k i).
  set (qc := fst (fst T)) in *. set (qd := snd (fst T)) in *. set (ql := snd T) in *.
  set (B := ev_bins d is_spill nm e k i). set (bc := fst B) in *. set (bd := snd B) in *.
  match goal with H : (if limit_charge_variables_to_valid_events fl then _ else _) o = Ok (?p, ?oo) |- _ =>
    assert ((o_next o <= o_next oo)%nat /\ o_cons oo = o_cons o /\ o_obj oo = o_obj o /\
      (forall v, In v (fvars (fst p) ++ fvars (snd p)) -> (o_next o <= v_id v < o_next oo)%nat) /\
      reach (o_next o) (o_next oo) (fun s => fset s (fst p) qc /\ fset s (snd p) bc) /\
      ((exists x b, fst p = FVar x /\ snd p = FVar b /\
      cont x (Some 0) (Some (mw_to_mwh f (cg_max_mw cc))) /\ is_binary_var b /\
      (limit_charge_variables_to_valid_events fl = true -> exists ce, event_at (ev_events c) i e = Ok ce /\ ce == 1)) \/
      (fst p = FFloat 0 /\ snd p = FInt 0 /\ limit_charge_variables_to_valid_events fl = true /\
     exists ce, event_at (ev_events c) i e = Ok ce /\ ~ ce == 1))) as (L1 & C1 & O1 & V1 & R1 & S1)
  end.
  { clear -H0. destruct (limit_charge_variables_to_valid_events fl) eqn:EL.
    - minv H0. match goal with H : event_at _ _ _ = Ok ?ce |- _ => rename H into EA; set (ev := ce) in * end. destruct (Qeq_bool ev 1) eqn:EQ1.
      + minv H0. alloc_inv. splits; auto; try lia.
        * vars_range.
        * match goal with |- reach ?n _ _ => exists (tg n [qc; bc]) end. intros s H. cbn [fst snd fset v_id]. split; rewrite H by lia; rewrite ?tg_S by lia; apply tg_0.
        * left. do 2 eexists. splits; try reflexivity; try (repeat split; fail). intros _. exists ev. split; auto. now apply Qeq_bool_iff.
      + minv H0. splits; auto; try lia.
        * vars_range.
        * apply reach_true. simpl. auto.
        * right. splits; auto. exists ev. split; auto. apply Qeq_bool_neq. exact EQ1.
    - minv H0. alloc_inv. splits; auto; try lia.
      * vars_range.
      * exists (tg (o_next o) [qc; bc]). intros s H. cbn [fst snd fset v_id]. split; rewrite H by lia; rewrite ?tg_S by lia; apply tg_0.
      * left. do 2 eexists. splits; try reflexivity; try (repeat split; fail). discriminate. }
  match goal with H : (if (disc && allow_evs_discharge fl)%bool then _ else _) ?o1 = Ok (?p, ?oo) |- _ =>
    assert ((o_next o1 <= o_next oo)%nat /\ o_cons oo = o_cons o1 /\ o_obj oo = o_obj o1 /\
      (forall v, In v (fvars (fst p) ++ fvars (snd p)) -> (o_next o1 <= v_id v < o_next oo)%nat) /\
      reach (o_next o1) (o_next oo) (fun s => fset s (fst p) qd /\ fset s (snd p) bd) /\
      (if (disc && allow_evs_discharge fl)%bool then exists x b, fst p = FVar x /\ snd p = FVar b /\
      cont x (Some 0) (Some (mw_to_mwh f (cg_max_mw cc))) /\ is_binary_var b
      else fst p = FFloat 0 /\ snd p = FInt 0)) as (L2 & C2 & O2 & V2 & R2 & S2)
  end.
  { clear -H1. destruct (disc && allow_evs_discharge fl)%bool.
    - minv H1. alloc_inv. splits; auto; try lia.
      * vars_range.
      * match goal with |- reach ?n _ _ => exists (tg n [qd; bd]) end. intros s H. cbn [fst snd fset v_id]. split; rewrite H by lia; rewrite ?tg_S by lia; apply tg_0.
      * do 2 eexists. splits; try reflexivity; try (repeat split; fail).
    - minv H1. splits; auto; try lia.
      * vars_range.
      * apply reach_true. simpl. auto. }
  clear H0 H1. alloc_inv.
  match goal with |- context [mkVar (o_next ?oo) ?n false (Some 0) None] =>
    assert (reach (o_next oo) (S (o_next oo)) (fun s => s (o_next oo) = ql)) as R3
      by (exists (tg (o_next oo) [ql]); intros s H; rewrite H by lia; apply tg_0);
    set (lv := mkVar (o_next oo) n false (Some 0) None) in *
  end.
  splits; try congruence; try lia.
  - eexists. split; [destruct is_spill; reflexivity|]. unfold pair_shape. cbn [eoi_cfg eoi_i eoi_event eoi_event_cfg eoi_charger eoi_charger_cfg eoi_soc0 eoi_soc1].
    splits; try reflexivity.
    + unfold charge_shape. cbn [eoi_charge eoi_charge_bin]. exact S1.
    + unfold discharge_shape. cbn [eoi_discharge eoi_discharge_bin]. exact S2.
    + eexists. split; [reflexivity|]. repeat split.
  - intros v I. assert (In v ((fvars (fst a0) ++ fvars (snd a0)) ++ (fvars (fst a1) ++ fvars (snd a1)) ++ [lv])%list) as J.
    { destruct is_spill; cbn in I |- *; rewrite !in_app_iff in *; cbn in *; tauto. }
    rewrite !in_app_iff in J. destruct J as [[J|J]|[[J|J]|J]].
    + specialize (V1 v). rewrite in_app_iff in V1. specialize (V1 (or_introl J)). lia.
    + specialize (V1 v). rewrite in_app_iff in V1. specialize (V1 (or_intror J)). lia.
    + specialize (V2 v). rewrite in_app_iff in V2. specialize (V2 (or_introl J)). lia.
    + specialize (V2 v). rewrite in_app_iff in V2. specialize (V2 (or_intror J)). lia.
    + destruct J as [<-|[]]. cbn. lia.
  - eapply reach_impl; [|eapply reach_and; [|exact R1|eapply reach_and; [|exact R2|exact R3]]]; try lia.
    cbn beta. intros s ((A1 & A2) & (A3 & A4) & A5) Z0 Z1.
    destruct is_spill; cbn [oi_set eoi_cfg eoi_event eoi_charger eoi_charge eoi_charge_bin eoi_discharge eoi_discharge_bin eoi_loss eoi_soc0 eoi_soc1]; cbv zeta; fold nm;
    subst T B qc qd ql bc bd; cbn [ev_target ev_bins fst snd] in *; splits; auto.
Qed.
