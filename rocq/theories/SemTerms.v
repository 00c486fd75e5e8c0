(** * SemTerms: what custom terms add up to in a built program (proofs) *)
From Verif Require Import Base Pulp Params Optimizer Types Assets EVs Site Constraints Objectives Extract Pipeline Emit Prim Spec SpecReport SpecRun SpecTerms Layout Rows Sem SemEv SemSite SemProg SemObj SemResults.
Open Scope Q_scope.
Open Scope string_scope.

(** the value of an attribute of an object, None counting as zero *)
Definition reading (s : assignment) (attr : string) (x : oneint) : Q :=
  match getattr x attr with Ok f => fv s (none_to_zero f) | Err _ => 0 end.

Definition kind_string (k : kind) : option string :=
  match k with
  | KSite => Some "site" | KBattery => Some "battery" | KBoiler => Some "boiler" | KCHP => Some "chp" | KEv => Some "evs" | KEvSpill => Some "spill_evs"
  | KHeatPump => Some "heat-pump" | KRenewable => Some "renewable-generator" | KSpill => Some "spill" | KValve => None
  end.
Definition is_piece (x : oneint) (p : piece) : Prop := piece_type p = kind_string (kind_of x) /\ oi_name x = piece_name p.
Lemma matches_picked ty k nm x p : map_type ty = Ok k -> is_piece x p -> matches k nm x = picked ty nm p.
Proof.
  intros M [T N]. unfold matches, picked. f_equal.
  - destruct ty as [ty|]; cbn [map_type type_picks] in *; [|injection M as <-; reflexivity]. rewrite T. unfold type_mapper in M.
    repeat match type of M with (if ?a =? ?b then _ else _) = _ => destruct (String.eqb_spec a b) as [->|]; [injection M as <-; destruct (kind_of x); reflexivity|] end. discriminate.
  - destruct nm as [n|]; cbn [name_picks]; auto. now rewrite N, String.eqb_sym.
Qed.

Lemma filter_const {A} (f : A -> bool) b l : (forall x, In x l -> f x = b) -> filter f l = if b then l else [].
Proof.
  induction l as [|x l IH]; intros H; [now destruct b|]. cbn [filter]. rewrite (H x (or_introl eq_refl)), IH by (intros; apply H; now right). now destruct b.
Qed.

Section One.
Context (s : assignment) (d : dispatch) (t : nat) (f : freq) (fl : flags).

Ltac attrs I := cbn [plain_quantities In] in I; repeat (destruct I as [<-|I]; [|]); try destruct I.
Lemma plain_reading a x attr : asset_shape a t f fl [x] -> (forall c, a <> AEVs c) -> oi_eq d t s x -> In attr plain_quantities ->
  is_piece x (PAsset a) /\ reading s attr x == quantity d t attr (PAsset a).
Proof.
  intros SH NE V I. destruct a as [c|c|c|c|c|c|n|n]; cbn [asset_shape] in SH.
  4:{ now destruct (NE c). }
  all: destruct SH as (r & X & SR); injection X as ->; destruct SR as (SR & _); (split; [split; [reflexivity|exact SR || (cbn; now rewrite SR)]|]);
    cbn [oi_eq oi_val] in V; unfold vset in V; cbv zeta in V; rewrite SR in V; repeat match goal with H : _ /\ _ |- _ => destruct H end;
    attrs I; cbn; first [reflexivity|match goal with H : ?a = _ |- ?a == _ => rewrite H; reflexivity end].
Qed.
Lemma ev_reading c S0 S1 E Sp xs attr : evs_shape c t f fl xs S0 S1 E Sp -> asset_fine (AEVs c) -> Forall (oi_eq d t s) xs -> In attr plain_quantities ->
  Forall (fun x => is_piece x (PEv c)) (map OIEv (grid E (n_events c) (n_chargers c))) /\
  Forall (fun x => is_piece x (PEvSpill c)) (map OIEvSpill (grid Sp (n_events c) (List.length (ev_spill_chargers c)))) /\
  Qsum (map (reading s attr) (map OIEv (grid E (n_events c) (n_chargers c)))) == quantity d t attr (PEv c) /\
  Qsum (map (reading s attr) (map OIEvSpill (grid Sp (n_events c) (List.length (ev_spill_chargers c))))) == quantity d t attr (PEvSpill c).
Proof.
  intros (-> & _ & SE & SSp) (L1 & Hn & Hc) V I. rewrite Forall_app in V. destruct V as [V1 V2]. rewrite Forall_forall in V1, V2.
  assert (forall e k, (e < n_events c)%nat -> (k < n_chargers c)%nat -> eoi_cfg (E e k) = c /\
     fv s (eoi_charge (E e k)) == d_ev_charge d (ev_name c) e k t /\ fv s (eoi_discharge (E e k)) == d_ev_discharge d (ev_name c) e k t /\ fv s (eoi_loss (E e k)) == d_ev_loss d (ev_name c) e k t /\
     fv s (eoi_soc0 (E e k)) == d_ev_soc0 d (ev_name c) e t /\ fv s (eoi_soc1 (E e k)) == d_ev_soc1 d (ev_name c) e t) as A.
  { intros e k He Hk. destruct (nth_error_lt _ _ He) as (ec & Ee). destruct (nth_error_lt _ _ Hk) as (cc & Ek).
    specialize (SE e ec k cc Ee Ek). destruct SE as (Q1 & _ & Q2 & _ & Q3 & _).
    assert (In (OIEv (E e k)) (map OIEv (grid E (n_events c) (n_chargers c)))) as J by (apply in_map, in_grid; eauto).
    specialize (V1 _ J). cbn [oi_eq] in V1. rewrite Q1, Q2, Q3 in V1. tauto. }
  assert (forall e, (e < n_events c)%nat -> eoi_cfg (Sp e 0%nat) = c /\
     fv s (eoi_charge (Sp e 0%nat)) == d_spill_charge d (ev_name c) e t /\ fv s (eoi_discharge (Sp e 0%nat)) == 0 /\ fv s (eoi_loss (Sp e 0%nat)) == d_spill_loss d (ev_name c) e t /\
     fv s (eoi_soc0 (Sp e 0%nat)) == 0 /\ fv s (eoi_soc1 (Sp e 0%nat)) == 0) as B.
  { intros e He. destruct (nth_error_lt _ _ He) as (ec & Ee). destruct (nth_error_lt (ev_spill_chargers c) 0 ltac:(lia)) as (cc & Ek).
    specialize (SSp e ec 0%nat cc Ee Ek). destruct SSp as (Q1 & _ & Q2 & _ & Q3 & _ & _ & _ & _ & Q4 & Q5).
    assert (In (OIEvSpill (Sp e 0%nat)) (map OIEvSpill (grid Sp (n_events c) (List.length (ev_spill_chargers c))))) as J by (apply in_map, in_grid; exists e, 0%nat; splits; auto; lia).
    specialize (V2 _ J). cbn [oi_eq] in V2. rewrite Q1, Q2 in V2. rewrite Q4, Q5. splits; try tauto; reflexivity. }
  assert (forall (h : nat -> nat -> Q) (g : ev_oi -> Q), (forall e k, (e < n_events c)%nat -> (k < n_chargers c)%nat -> g (E e k) == h e k) ->
    Qsum (map g (grid E (n_events c) (n_chargers c))) == over_events c (fun e => over_chargers c (h e))) as SumE.
  { intros h g H. unfold grid. rewrite flat_map_concat_map, concat_map, Qsum_concat, !map_map. apply Qsum_map_ext. intros e Je. apply in_seq in Je. rewrite map_map. apply Qsum_map_ext. intros k Jk. apply in_seq in Jk. apply H; unfold n_events, n_chargers; lia. }
  assert (forall (h : nat -> Q) (g : ev_oi -> Q), (forall e, (e < n_events c)%nat -> g (Sp e 0%nat) == h e) ->
    Qsum (map g (grid Sp (n_events c) (List.length (ev_spill_chargers c)))) == over_events c h) as SumS.
  { intros h g H. rewrite L1. unfold grid. rewrite flat_map_concat_map, concat_map, Qsum_concat, !map_map. apply Qsum_map_ext. intros e Je. apply in_seq in Je. cbn [seq map Qsum fold_right]. rewrite Qplus_0_r. apply H. unfold n_events. lia. }
  splits.
  - rewrite Forall_forall. intros x J. apply in_map_iff in J. destruct J as (y & <- & J). apply in_grid in J. destruct J as (e & k & He & Hk & ->). destruct (A e k He Hk) as (C & _). split; cbn; [reflexivity|now rewrite C].
  - rewrite Forall_forall. intros x J. apply in_map_iff in J. destruct J as (y & <- & J). apply in_grid in J. destruct J as (e & k & He & Hk & ->). assert (k = 0%nat) as -> by lia. destruct (B e He) as (C & _). split; cbn; [reflexivity|now rewrite C].
  - rewrite map_map. attrs I; cbn [reading getattr getattr_base getattr_extra quantity String.eqb Ascii.eqb Bool.eqb none_to_zero].
    all: first [ apply SumE; intros e k He Hk; destruct (A e k He Hk) as (_ & A1 & A2 & A3 & A4 & A5); unfold reading; cbn; first [destruct (eoi_charge (E e k)); exact A1|destruct (eoi_discharge (E e k)); exact A2|destruct (eoi_loss (E e k)); exact A3|destruct (eoi_soc0 (E e k)); exact A4|destruct (eoi_soc1 (E e k)); exact A5]
               | apply Qsum_map_zero; intros; reflexivity ].
  - rewrite map_map. attrs I; cbn [reading getattr getattr_base getattr_extra quantity String.eqb Ascii.eqb Bool.eqb none_to_zero].
    all: first [ apply SumS; intros e He; destruct (B e He) as (_ & A1 & A2 & A3 & _); unfold reading; cbn; first [destruct (eoi_charge (Sp e 0%nat)); exact A1|destruct (eoi_loss (Sp e 0%nat)); exact A3]
               | apply Qsum_map_zero; intros x J; apply in_grid in J; destruct J as (e & k & He & Hk & ->); assert (k = 0%nat) as -> by lia; destruct (B e He) as (_ & _ & A2 & _ & A4 & A5); unfold reading; cbn; first [reflexivity|destruct (eoi_discharge (Sp e 0%nat)); exact A2|destruct (eoi_soc0 (Sp e 0%nat)); exact A4|destruct (eoi_soc1 (Sp e 0%nat)); exact A5] ].
Qed.
End One.

Lemma data_factor_value d name t q : data_factor d name t = Ok q -> q == data_value d name t.
Proof.
  destruct name as [n|]; cbn [data_factor data_value]; [|now intros [= <-]]. unfold id_get. destruct (n =? "idx").
  - destruct (Nat.ltb t (id_n d)); [intros [= <-]; reflexivity|discriminate].
  - destruct (assoc n (id_columns d)); [|discriminate]. intros H. apply nth_res_data in H. now rewrite H.
Qed.

Lemma Qsum_map_plus_at {A} (f : A -> Q) (g : A -> list Q) l : Qsum (map f l) + Qsum (map (fun x => Qsum (g x)) l) == Qsum (map (fun x => Qsum (f x :: g x)) l).
Proof. rewrite <- Qsum_map_plus. reflexivity. Qed.
Lemma Qsum_const {A} (q : Q) (l : list A) : Qsum (map (fun _ => q) l) == inject_Z (Z.of_nat (List.length l)) * q.
Proof. induction l as [|x l IH]; [cbn [map List.length]; change (inject_Z (Z.of_nat 0)) with 0; cbn [Qsum fold_right]; ring|]. cbn [map List.length]. unfold Qsum in *. cbn [fold_right]. rewrite IH, Nat2Z.inj_succ, <- Z.add_1_r, inject_Z_plus. ring. Qed.
Lemma Qsum_map_filter_ext {A} (f : A -> Q) p q l : (forall x, p x = q x) -> Qsum (map f (filter p l)) == Qsum (map f (filter q l)).
Proof. intros H. now rewrite (filter_ext _ _ H). Qed.
Section Rows.
Context (c : site_cfg) (assets : list asset) (fl : flags) (iv : interval_vars) (lo hi : nat) (cs : list constr) (P : program c assets fl iv lo hi cs).

Lemma row_picked d s t row attr ty k nm : eq_of d s iv -> nth_error iv t = Some row -> In attr plain_quantities -> map_type ty = Ok k ->
  Qsum (map (reading s attr) (filter (matches k nm) row)) == amount (quantity d) assets t attr (picked ty nm).
Proof.
  intros V E I M. specialize (V t row E). pose proof (pr_shape _ _ _ _ _ _ _ P t row E) as SH.
  assert (Forall asset_fine assets) as FN by (apply (pr_fine _ _ _ _ _ _ _ P); intros ->; destruct t; discriminate).
  set (h := fun x => if matches k nm x then reading s attr x else 0).
  assert (forall l, Qsum (map (reading s attr) (filter (matches k nm) l)) == Qsum (map h l)) as FH.
  { induction l as [|x l IH]; [reflexivity|]. cbn [filter map]. unfold Qsum in *. cbn [fold_right]. rewrite <- IH. unfold h. destruct (matches k nm x); cbn [map fold_right]; lra. }
  set (h' := fun p => if picked ty nm p then quantity d t attr p else 0).
  assert (forall l, Qsum (map (quantity d t attr) (filter (picked ty nm) l)) == Qsum (map h' l)) as FH'.
  { induction l as [|x l IH]; [reflexivity|]. cbn [filter map]. unfold Qsum in *. cbn [fold_right]. rewrite <- IH. unfold h'. destruct (picked ty nm x); cbn [map fold_right]; lra. }
  rewrite FH. unfold amount. rewrite FH'.
  destruct (row_total c assets fl t row d s h (fun a => Qsum (map h' (pieces_of a))) SH FN V) as (r & Ir & SR & ->).
  { intros a xs AS FNa Vx.
    assert (forall c, a <> AEVs c -> True) as _ by auto.
    destruct a as [b|b|b|b|b|b|n|n]; cbn [pieces_of].
    4:{ cbn [asset_shape] in AS. destruct AS as (S0 & S1 & G & Sp & AS). destruct (ev_reading s d t (sc_freq c) fl b S0 S1 G Sp xs attr AS FNa Vx I) as (K1 & K2 & K3 & K4). destruct AS as (-> & _).
        rewrite map_app, Qsum_app. cbn [map]. unfold Qsum at 3. cbn [fold_right]. rewrite Qplus_0_r. rewrite <- !FH.
        rewrite (filter_const _ (picked ty nm (PEv b))), (filter_const (matches k nm) (picked ty nm (PEvSpill b))).
        - unfold h'. apply Qplus_comp; (destruct (picked ty nm _); [assumption|reflexivity]).
        - intros x J. rewrite Forall_forall in K2. eapply matches_picked; eauto.
        - intros x J. rewrite Forall_forall in K1. eapply matches_picked; eauto. }
    all: pose proof AS as AS'; cbn [asset_shape] in AS; destruct AS as (r & -> & _); apply Forall_inv in Vx; destruct (plain_reading s d t (sc_freq c) fl _ _ attr AS' ltac:(discriminate) Vx I) as [K1 K2];
      cbn [map]; unfold Qsum; cbn [fold_right]; rewrite !Qplus_0_r; unfold h, h'; rewrite (matches_picked ty k nm _ _ M K1); destruct (picked ty nm _); [exact K2|reflexivity]. }
  unfold pieces. cbn [map]. change (Qsum (h' PSite :: map h' (flat_map pieces_of assets))) with (h' PSite + Qsum (map h' (flat_map pieces_of assets))). apply Qplus_comp.
  - rewrite Forall_forall in V. specialize (V _ Ir). cbn [oi_eq oi_val] in V. unfold vset in V. destruct V as [V1 V2]. unfold h, h'.
    rewrite (matches_picked ty k nm (OISite r) PSite M) by (split; [reflexivity|apply SR]). destruct (picked ty nm PSite); [|reflexivity].
    cbn [plain_quantities In] in I. repeat (destruct I as [<-|I]; [cbn; first [reflexivity|rewrite V1; reflexivity|rewrite V2; reflexivity]|]). destruct I.
  - rewrite flat_map_concat_map, concat_map, Qsum_concat, !map_map. unfold total. apply Qsum_map_ext. reflexivity.
Qed.

(** the attributes of the objects are constrained variables *)
Lemma spill_soc t row r : nth_error iv t = Some row -> In (OIEvSpill r) row -> eoi_soc0 r = FFloat 0 /\ eoi_soc1 r = FFloat 0.
Proof.
  intros E I. destruct (pr_shape _ _ _ _ _ _ _ P t row E) as (r0 & xss & -> & _ & F). destruct I as [I|I]; [discriminate|]. apply in_concat in I. destruct I as (xs & I1 & I2).
  destruct (Forall2_in_r _ _ _ _ F I1) as (a & _ & AS). destruct a as [b|b|b|b|b|b|n|n]; cbn [asset_shape] in AS.
  4:{ destruct AS as (S0 & S1 & G & Sp & -> & _ & _ & SS). apply in_app_iff in I2. destruct I2 as [I2|I2]; apply in_map_iff in I2; destruct I2 as (y & X & I2); [discriminate|]. injection X as ->.
      apply in_grid in I2. destruct I2 as (e & k & He & Hk & ->). destruct (nth_error_lt _ _ He) as (ec & Ee). destruct (nth_error_lt _ _ Hk) as (cc & Ek). destruct (SS e ec k cc Ee Ek) as (_ & _ & _ & _ & _ & _ & _ & _ & _ & Q4 & Q5). auto. }
  all: destruct AS as (r1 & -> & _); destruct I2 as [I2|[]]; discriminate.
Qed.
Lemma reading_vars x attr f v : (forall r, x = OIEvSpill r -> eoi_soc0 r = FFloat 0 /\ eoi_soc1 r = FFloat 0) -> getattr x attr = Ok f -> In attr plain_quantities -> In v (fvars (none_to_zero f)) -> In v (must_vars x) \/ In v (bal_vars x).
Proof.
  intros SP H I J. unfold bal_vars. rewrite !in_app_iff. assert (In v (fvars f)) as J' by (destruct f; exact J). clear J. cbn [plain_quantities In] in I.
  repeat (destruct I as [<-|I]; [destruct x; cbn in H; try discriminate; injection H as <-; try solve [destruct J'|cbn in J' |- *; rewrite ?in_app_iff; tauto]; destruct (SP _ eq_refl) as [S1 S2]; rewrite ?S1, ?S2 in J'; destruct J'|]). destruct I.
Qed.

Lemma products_eval s (F : oneint -> string -> res fval) l attr (q k : Q) (G : oneint -> res Q) es :
  (forall x q', G x = Ok q' -> q' == q) ->
  rmap (fun x => let! f := getattr x attr in let! y := G x in Ok (escale (escale (fexpr (none_to_zero f)) y) k)) l = Ok es ->
  Qsum (map (eval s) es) == Qsum (map (reading s attr) l) * q * k.
Proof.
  intros HG H. rewrite (rmap_sum _ _ _ s (fun x => (q * k) * reading s attr x) H).
  - rewrite Qsum_map_scale. ring.
  - intros x y _ E. rewrite rbind_ok in E. destruct E as (f & E1 & E). rewrite rbind_ok in E. destruct E as (y' & E2 & E). injection E as <-.
    rewrite !eval_escale, eval_fexpr. unfold reading. rewrite E1, (HG _ _ E2). ring.
Qed.
Lemma products_vars l attr (k : Q) (G : oneint -> res Q) es y v t row : nth_error iv t = Some row -> incl l row -> In attr plain_quantities ->
  rmap (fun x => let! f := getattr x attr in let! y := G x in Ok (escale (escale (fexpr (none_to_zero f)) y) k)) l = Ok es -> In y es -> In v (evars y) -> cared iv v.
Proof.
  intros E L I H Iy Iv. rewrite rmap_ok in H. destruct (Forall2_in_r _ _ _ _ H Iy) as (x & Ix & Ex).
  rewrite rbind_ok in Ex. destruct Ex as (f & E1 & Ex). rewrite rbind_ok in Ex. destruct Ex as (y' & E2 & Ex). injection Ex as <-.
  rewrite !evars_escale, evars_fexpr in Iv. exists row, x. splits; [eapply nth_error_In; eauto|now apply L|].
  eapply reading_vars; [|exact E1|exact I|]; [intros r ->; eapply spill_soc; [exact E|apply L, Ix]|]. destruct (Qeq_bool k 0); [destruct Iv|]. destruct (Qeq_bool y' 0); [destruct Iv|exact Iv].
Qed.

(** ** entries of custom constraints *)
Definition entry_in (sum : bool) (d : dispatch) (t : nat) (e : centry) : Q :=
  match e with CNumber x => if sum then x / inject_Z (Z.of_nat (n_intervals c)) else x | _ => entry_at (quantity d) c assets t e end.
Lemma filter_str_ok ty nm t l : filter_objective_variables_str iv (Z.of_nat t) ty nm = Ok l -> exists k row, map_type ty = Ok k /\ nth_error iv t = Some row /\ l = filter (matches k nm) row.
Proof.
  unfold filter_objective_variables_str, filter_objective_variables. rewrite rbind_ok. intros (k & M & H). rewrite rbind_ok in H. destruct H as (row & E & [= <-]). rewrite py_index_nat, of_option_ok in E. eauto.
Qed.
Lemma entry_eval d s t sum e l : eq_of d s iv -> plain_entry e -> resolve_constraint_term e iv (sc_idata c) t sum = Ok l ->
  Qsum (map (eval s) l) == entry_in sum d t e /\ forall y v, In y l -> In v (evars y) -> cared iv v.
Proof.
  intros V PL H. destruct e as [x|k]; cbn [resolve_constraint_term entry_in entry_at plain_entry] in *.
  - assert (exists z, l = [econst z] /\ z == (if sum then x / inject_Z (Z.of_nat (n_intervals c)) else x)) as (z & -> & Z).
    { destruct sum; [destruct (Nat.eqb _ _); [discriminate|]|]; injection H as <-; eexists; (split; [reflexivity|]); [reflexivity|field]. }
    split; [cbn [map Qsum fold_right]; rewrite eval_econst, Z; lra|]. intros y v [<-|[]] Iv. destruct Iv.
  - rewrite rbind_ok in H. destruct H as (xs & HF & H). destruct (filter_str_ok _ _ _ _ HF) as (kk & row & M & E & ->). split.
    + rewrite (products_eval s (fun _ _ => Err AttributeErr) _ _ (data_value (sc_idata c) (ct_interval_data k) t) (ct_coefficient k) (fun _ => data_factor (sc_idata c) (ct_interval_data k) t) _ (fun _ q Hq => data_factor_value _ _ _ _ Hq) H).
      rewrite (row_picked d s t row _ _ _ _ V E PL M). reflexivity.
    + intros y v Iy Iv. eapply (products_vars _ _ _ _ _ _ _ t row E); [|exact PL|exact H|exact Iy|exact Iv]. intros x Ix. apply filter_In in Ix. tauto.
Qed.
Lemma side_eval d s t sum side l : eq_of d s iv -> Forall plain_entry side -> add_terms side iv (sc_idata c) t sum = Ok l ->
  Qsum (map (eval s) l) == Qsum (map (entry_in sum d t) side) /\ forall y v, In y l -> In v (evars y) -> cared iv v.
Proof.
  intros V PL H. unfold add_terms in H. rewrite rbind_ok in H. destruct H as (ls & H & [= <-]). rewrite rmap_ok in H.
  induction H as [|e x side ls E F IH]; [split; [reflexivity|intros y v []]|]. inversion PL as [|? ? PL1 PL2]; subst. destruct (entry_eval d s t sum e x V PL1 E) as [A1 A2]. destruct (IH PL2) as [B1 B2].
  cbn [List.concat map]. rewrite map_app, Qsum_app, A1, B1. split; [reflexivity|]. intros y v Iy Iv. apply in_app_iff in Iy. destruct Iy; eauto.
Qed.

(** ** the constraints a custom constraint adds *)
Lemma loop_each k iv' d idx : cn_sum k = false -> forall o l g o', custom_loop k iv' d [] [] idx o = Ok ((l, g), o') ->
  exists ks, extends o o' ks /\ Forall2 (fun t kk => exists a b, add_terms (cn_lhs k) iv' d t (cn_sum k) = Ok a /\ add_terms (cn_rhs k) iv' d t (cn_sum k) = Ok b /\
     kk = mkC (esub (esum a) (esum b)) (cn_sense k)) idx ks.
Proof.
  intros S. induction idx as [|t idx IH]; intros o l g o' H.
  - cbn in H. injection H as <- <- <-. exists []. split; [|constructor]. unfold extends. now rewrite app_nil_r.
  - cbn [custom_loop] in H. rewrite bind_ok in H. destruct H as (a & o1 & H1 & H). apply lift_ok in H1. destruct H1 as [H1 <-].
    rewrite bind_ok in H. destruct H as (b & o2 & H2 & H). apply lift_ok in H2. destruct H2 as [H2 <-].
    rewrite bind_ok in H. destruct H as (u1 & o3 & H3 & H). apply massert_ok in H3. destruct H3 as [_ <-]. rewrite bind_ok in H. destruct H as (u2 & o4 & H4 & H). apply massert_ok in H4. destruct H4 as [_ <-].
    rewrite S in H. rewrite bind_ok in H. destruct H as (u3 & o5 & H5 & H). apply constrain_ok in H5. subst o5. destruct (IH _ _ _ _ H) as (ks & (E1 & E2 & E3) & F). cbn [app] in *.
    exists (mkC (esub (esum a) (esum b)) (cn_sense k) :: ks). split; [|constructor; eauto].
    unfold extends, cons_of in *. cbn [o_next o_cons o_obj] in *. splits; auto. rewrite E3, map_app, <- app_assoc. reflexivity.
Qed.
Lemma loop_sum k iv' d idx : cn_sum k = true -> forall L R o l g o', custom_loop k iv' d L R idx o = Ok ((l, g), o') ->
  o' = o /\ exists la lb, Forall2 (fun t a => add_terms (cn_lhs k) iv' d t (cn_sum k) = Ok a) idx la /\ Forall2 (fun t a => add_terms (cn_rhs k) iv' d t (cn_sum k) = Ok a) idx lb /\
     l = (L ++ List.concat la)%list /\ g = (R ++ List.concat lb)%list.
Proof.
  intros S. induction idx as [|t idx IH]; intros L R o l g o' H.
  - cbn in H. injection H as <- <- <-. split; auto. exists [], []. cbn. rewrite !app_nil_r. auto.
  - cbn [custom_loop] in H. rewrite bind_ok in H. destruct H as (a & o1 & H1 & H). apply lift_ok in H1. destruct H1 as [H1 <-].
    rewrite bind_ok in H. destruct H as (b & o2 & H2 & H). apply lift_ok in H2. destruct H2 as [H2 <-].
    rewrite bind_ok in H. destruct H as (u1 & o3 & H3 & H). apply massert_ok in H3. destruct H3 as [_ <-]. rewrite bind_ok in H. destruct H as (u2 & o4 & H4 & H). apply massert_ok in H4. destruct H4 as [_ <-].
    rewrite S in H. destruct (IH _ _ _ _ _ _ H) as (-> & la & lb & F1 & F2 & -> & ->). split; auto. exists (a :: la), (b :: lb). cbn [List.concat]. rewrite !app_assoc. auto.
Qed.
Lemma sense_compares k x y : sense_holds k (x - y) <-> compares k x y.
Proof. destruct k; cbn; split; intros; lra. Qed.
Lemma compares_ext k x y x' y' : x == x' -> y == y' -> (compares k x y <-> compares k x' y').
Proof. intros A B. destruct k; cbn; rewrite A, B; reflexivity. Qed.

Lemma entry_in_false d t side : Qsum (map (entry_in false d t) side) == side_at (quantity d) c assets t side.
Proof. apply Qsum_map_ext. intros e _. destruct e; reflexivity. Qed.
Lemma entry_in_true d side : (0 < n_intervals c)%nat -> Qsum (map (fun t => Qsum (map (entry_in true d t) side)) (seq 0 (n_intervals c))) == side_sum (quantity d) c assets side.
Proof.
  intros Hn. unfold side_sum. induction side as [|e side IH].
  - apply Qsum_map_zero. reflexivity.
  - cbn [map]. change (Qsum (entry_sum (quantity d) c assets e :: map (entry_sum (quantity d) c assets) side)) with (entry_sum (quantity d) c assets e + Qsum (map (entry_sum (quantity d) c assets) side)).
    rewrite <- IH. rewrite <- Qsum_map_plus_at. apply Qplus_comp; [|reflexivity].
    destruct e as [x|k]; [|reflexivity]. cbn [entry_in entry_sum]. rewrite Qsum_const, seq_length. field. change 0 with (inject_Z 0). rewrite inject_Z_injective. lia.
Qed.

Lemma custom_sem k o u o' : (0 < n_intervals c)%nat -> plain_constraint k -> add_custom_constraint k iv (sc_idata c) o = Ok (u, o') ->
  exists ks, extends o o' ks /\ forall d s, eq_of d s iv ->
    (all_ok s ks -> satisfied (quantity d) c assets k) /\
    (satisfied (quantity d) c assets k -> (forall v, cared iv v -> var_ok s v) -> all_ok s ks).
Proof.
  intros Hn PL H. unfold plain_constraint in PL. rewrite Forall_app in PL. destruct PL as [PL PR]. unfold add_custom_constraint in H. rewrite bind_ok in H. destruct H as ((l & g) & o1 & H1 & H). cbn [fst snd] in H.
  unfold satisfied. destruct (cn_sum k) eqn:SU.
  - destruct (loop_sum _ _ _ _ SU _ _ _ _ _ _ H1) as (-> & la & lb & F1 & F2 & -> & ->). cbn [app] in H. rewrite SU in *.
    exists [mkC (esub (esum (List.concat la)) (esum (List.concat lb))) (cn_sense k)]. split; [eapply emits_constrain; exact H|]. intros d s V.
    assert (forall side ls, Forall plain_entry side -> Forall2 (fun t a => add_terms side iv (sc_idata c) t true = Ok a) (seq 0 (id_n (sc_idata c))) ls ->
      eval s (esum (List.concat ls)) == side_sum (quantity d) c assets side /\ forall v, In v (evars (esum (List.concat ls))) -> cared iv v) as SD.
    { intros side ls PS F. split.
      - rewrite <- (entry_in_true d side Hn). apply (horizon_sum (fun t => add_terms side iv (sc_idata c) t true)); [now apply rmap_ok|]. intros t x E. apply (side_eval d s t true side x V PS E).
      - intros v Iv. rewrite evars_esum in Iv. apply in_flat_map in Iv. destruct Iv as (y & Iy & Iv). apply in_concat in Iy. destruct Iy as (x & Ix & Iy). destruct (Forall2_in_r _ _ _ _ F Ix) as (t & _ & E). apply (proj2 (side_eval d s t true side x V PS E) y v Iy Iv). }
    destruct (SD _ _ PL F1) as [A1 A2]. destruct (SD _ _ PR F2) as [B1 B2]. unfold holds_in_total.
    rewrite all_ok_cons, all_ok_nil. unfold constr_ok. cbn [c_expr c_sense]. split.
    + intros ((K & _) & _). rewrite <- (compares_ext _ _ _ _ _ A1 B1). apply sense_compares. destruct (cn_sense k); cbn in *; rewrite eval_esub in K; exact K.
    + intros K VO. split; [|exact Logic.I]. split.
      * rewrite <- (compares_ext _ _ _ _ _ A1 B1) in K. apply sense_compares in K. destruct (cn_sense k); cbn in *; rewrite eval_esub; exact K.
      * rewrite Forall_forall. intros v Iv. rewrite evars_esub, in_app_iff in Iv. apply VO. destruct Iv; auto.
  - destruct (loop_each _ _ _ _ SU _ _ _ _ H1) as (ks & EX & F). rewrite SU in *. apply ret_ok in H. destruct H as [_ <-]. exists ks. split; auto. intros d s V.
    assert (forall t kk, (exists a b, add_terms (cn_lhs k) iv (sc_idata c) t false = Ok a /\ add_terms (cn_rhs k) iv (sc_idata c) t false = Ok b /\ kk = mkC (esub (esum a) (esum b)) (cn_sense k)) ->
      (constr_ok s kk -> holds_at (quantity d) c assets k t) /\ (holds_at (quantity d) c assets k t -> (forall v, cared iv v -> var_ok s v) -> constr_ok s kk)) as ST.
    { intros t kk (a & b & Ha & Hb & ->). destruct (side_eval d s t false _ a V PL Ha) as [A1 A2]. destruct (side_eval d s t false _ b V PR Hb) as [B1 B2]. rewrite entry_in_false in A1, B1. unfold holds_at, constr_ok. cbn [c_expr c_sense].
      rewrite <- eval_esum in A1, B1. split.
      - intros (K & _). rewrite <- (compares_ext _ _ _ _ _ A1 B1). apply sense_compares. destruct (cn_sense k); cbn in *; rewrite eval_esub in K; exact K.
      - intros K VO. split.
        + rewrite <- (compares_ext _ _ _ _ _ A1 B1) in K. apply sense_compares in K. destruct (cn_sense k); cbn in *; rewrite eval_esub; exact K.
        + rewrite Forall_forall. intros v Iv. rewrite evars_esub, !evars_esum, in_app_iff, !in_flat_map in Iv. apply VO. destruct Iv as [(y & Iy & Iv)|(y & Iy & Iv)]; eauto. }
    split.
    + intros OK t Ht. unfold all_ok in OK. rewrite Forall_forall in OK.
      destruct (nth_error_lt ks t) as (kk & Ek); [rewrite <- (Forall2_len _ _ _ F), seq_length; exact Ht|].
      assert (nth_error (seq 0 (id_n (sc_idata c))) t = Some t) as Es by (rewrite (nth_error_nth' _ 0%nat), seq_nth by (rewrite ?seq_length; exact Ht); reflexivity).
      pose proof (Forall2_nth _ _ _ _ _ _ F Es Ek) as K. apply (ST t kk K). apply OK. eapply nth_error_In; eauto.
    + intros K VO. unfold all_ok. rewrite Forall_forall. intros kk Ik. destruct (Forall2_in_r _ _ _ _ F Ik) as (t & It & E). apply in_seq in It. apply (ST t kk E); auto. apply K. unfold n_intervals. lia.
Qed.
Lemma customs_sem cons o o' : (0 < n_intervals c)%nat -> Forall plain_constraint cons -> forM_ cons (fun k => add_custom_constraint k iv (sc_idata c)) o = Ok (tt, o') ->
  exists ks, extends o o' ks /\ forall d s, eq_of d s iv ->
    (all_ok s ks -> Forall (satisfied (quantity d) c assets) cons) /\
    (Forall (satisfied (quantity d) c assets) cons -> (forall v, cared iv v -> var_ok s v) -> all_ok s ks).
Proof.
  intros Hn. revert o. induction cons as [|k cons IH]; intros o PL H.
  - cbn in H. injection H as <-. exists []. split; [apply extends_refl|]. intros d s V. split; [constructor|]. intros. now rewrite all_ok_nil.
  - cbn [forM_] in H. rewrite bind_ok in H. destruct H as ([] & o1 & H1 & H). inversion PL as [|? ? P1 P2]; subst. destruct (custom_sem k _ _ _ Hn P1 H1) as (k1 & E1 & S1). destruct (IH _ P2 H) as (k2 & E2 & S2).
    exists (k1 ++ k2)%list. split; [eapply extends_trans; eauto|]. intros d s V. destruct (S1 d s V) as [A1 A2]. destruct (S2 d s V) as [B1 B2]. rewrite all_ok_app. split.
    + intros [X Y]. constructor; auto.
    + intros X VO. inversion X; subst. auto.
Qed.
(** of a constraint that is not plain nothing is said, but the others keep their meaning *)
Lemma custom_one cons o o' k : (0 < n_intervals c)%nat -> In k cons -> plain_constraint k -> forM_ cons (fun k => add_custom_constraint k iv (sc_idata c)) o = Ok (tt, o') ->
  forall d s, eq_of d s iv -> all_ok s (cons_of o') -> satisfied (quantity d) c assets k.
Proof.
  intros Hn I PL H d s V OK. revert o H. induction cons as [|k' cons IH]; intros o H; [destruct I|].
  cbn [forM_] in H. rewrite bind_ok in H. destruct H as ([] & o1 & H1 & H). destruct I as [->|I]; [|eauto].
  destruct (custom_sem k _ _ _ Hn PL H1) as (k1 & (_ & _ & E1) & S1).
  assert (grows (forM_ cons (fun k => add_custom_constraint k iv (sc_idata c)))) as G2 by (apply grows_forM_; intros; apply grows_custom). destruct (G2 _ _ _ H) as (_ & c2 & C2).
  rewrite C2, E1, !all_ok_app in OK. apply (S1 d s V). tauto.
Qed.

(** ** simple objective terms *)
Lemma simple_at_eval d s k t l : eq_of d s iv -> In (t_variable k) plain_quantities -> simple_term_at iv (sc_idata c) k t = Ok l ->
  Qsum (map (eval s) l) == term_at (quantity d) c assets k t /\ forall y v, In y l -> In v (evars y) -> cared iv v.
Proof.
  intros V PL H. unfold simple_term_at in H. rewrite rbind_ok in H. destruct H as (xs & HF & H). unfold simple_terms_for in H.
  assert (exists row, nth_error iv t = Some row /\ incl xs row /\ Qsum (map (reading s (t_variable k)) xs) == amount (quantity d) assets t (t_variable k) (term_picks k)) as (row & E & L & SM).
  { unfold opt_eqb in HF. unfold amount, term_picks. revert HF. generalize (t_asset_type k). intros oty HF. destruct oty as [ty|].
    - destruct (string_dec ty "*") as [TE|NE]; [subst ty; cbn [String.eqb Ascii.eqb Bool.eqb] in HF|rewrite (proj2 (String.eqb_neq ty "*") NE) in HF].
      + rewrite py_index_nat, of_option_ok in HF. exists xs. splits; auto; [apply incl_refl|]. rewrite <- (row_picked d s t xs (t_variable k) None None None V HF PL eq_refl). now rewrite filter_all.
      + destruct (filter_str_ok _ _ _ _ HF) as (kk & row & M & E & ->). exists row. splits; auto; [intros x Ix; apply filter_In in Ix; tauto|].
        rewrite (row_picked d s t row _ _ _ _ V E PL M). unfold amount.
        apply Qsum_map_filter_ext. intros p. now rewrite (proj2 (String.eqb_neq ty "*") NE).
    - destruct (filter_str_ok _ _ _ _ HF) as (kk & row & M & E & ->). exists row. splits; auto; [intros x Ix; apply filter_In in Ix; tauto|]. apply (row_picked d s t row _ _ _ _ V E PL M). }
  split.
  - rewrite (products_eval s (fun _ _ => Err AttributeErr) _ _ (data_value (sc_idata c) (t_interval_data k) t) (t_coefficient k) (fun _ => data_factor (sc_idata c) (t_interval_data k) t) _ (fun _ q Hq => data_factor_value _ _ _ _ Hq) H).
    rewrite SM. reflexivity.
  - intros y v Iy Iv. eapply (products_vars _ _ _ _ _ _ _ t row E L PL H); eauto.
Qed.
End Rows.
