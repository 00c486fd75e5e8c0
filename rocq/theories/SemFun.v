(** * SemFun: what function terms add to a built program (proofs) *)
From Verif Require Import Base Pulp Params Optimizer Types Assets EVs Site Constraints Objectives Extract Pipeline SpecOpt Emit Prim OptFacts Spec SpecReport SpecRun SpecTerms SpecFunctions Layout Rows Sem SemEv SemSite SemProg SemObj SemResults SemTerms RunFacts Builds Complete PropTerms Mono ShiftRun.
From Coq Require Import Qminmax Qabs.
Open Scope Q_scope.
Open Scope string_scope.

(** ** lists of equal numbers *)
Definition eqs : list Q -> list Q -> Prop := Forall2 Qeq.
Lemma eqs_app a b c d : eqs a b -> eqs c d -> eqs (a ++ c) (b ++ d).
Proof. apply Forall2_app. Qed.
Lemma eqs_refl l : eqs l l.
Proof. induction l; constructor; auto; reflexivity. Qed.
Lemma eqs_sym a b : eqs a b -> eqs b a.
Proof. induction 1; constructor; auto; now symmetry. Qed.
Lemma eqs_trans a b c : eqs a b -> eqs b c -> eqs a c.
Proof. intros H. revert c. unfold eqs in *. induction H; intros c K; [exact K|]; inversion K; subst; constructor; [eapply Qeq_trans; eauto|apply IHForall2; assumption]. Qed.
Lemma eqs_flat {A} (f g : A -> list Q) l : (forall x, In x l -> eqs (f x) (g x)) -> eqs (flat_map f l) (flat_map g l).
Proof. induction l as [|x l IH]; intros H; [constructor|]. cbn [flat_map]. apply eqs_app; [apply H; now left|apply IH; intros; apply H; now right]. Qed.
Lemma eqs_in a b x : eqs a b -> In x a -> exists y, In y b /\ x == y.
Proof. induction 1 as [|u v a b E F IH]; intros []; [subst; exists v; split; [now left|auto]|]. destruct IH as (y & I1 & I2); auto. exists y. split; [now right|auto]. Qed.
Lemma biggest_eqs x a b : eqs a b -> biggest x a == biggest x b.
Proof. induction 1 as [|u v a b E F IH]; [reflexivity|]. cbn. fold (biggest x a) (biggest x b). now rewrite E, IH. Qed.
Lemma least_eqs x a b : eqs a b -> least x a == least x b.
Proof. induction 1 as [|u v a b E F IH]; [reflexivity|]. cbn. fold (least x a) (least x b). now rewrite E, IH. Qed.
Lemma biggest_up x l : x <= biggest x l /\ forall y, In y l -> y <= biggest x l.
Proof.
  induction l as [|u l [IH1 IH2]]; cbn [biggest fold_right]; [split; [apply Qle_refl|intros y []]|]. fold (biggest x l). pose proof (Q.le_max_l u (biggest x l)). pose proof (Q.le_max_r u (biggest x l)).
  split; [lra|]. intros y [<-|I]; [auto|]. specialize (IH2 y I). lra.
Qed.
Lemma biggest_in x l : exists y, In y (x :: l) /\ biggest x l == y.
Proof.
  induction l as [|u l (y & I & E)]; [exists x; split; [now left|reflexivity]|]. cbn [biggest fold_right]. fold (biggest x l).
  destruct (Q.max_spec u (biggest x l)) as [[_ K]|[_ K]]; [exists y|exists u]; (split; [cbn in *; tauto|]); [rewrite K; exact E|exact K].
Qed.
Lemma least_low x l : least x l <= x /\ forall y, In y l -> least x l <= y.
Proof.
  induction l as [|u l [IH1 IH2]]; cbn [least fold_right]; [split; [apply Qle_refl|intros y []]|]. fold (least x l). pose proof (Q.le_min_l u (least x l)). pose proof (Q.le_min_r u (least x l)).
  split; [lra|]. intros y [<-|I]; [auto|]. specialize (IH2 y I). lra.
Qed.
Lemma least_in x l : exists y, In y (x :: l) /\ least x l == y.
Proof.
  induction l as [|u l (y & I & E)]; [exists x; split; [now left|reflexivity]|]. cbn [least fold_right]. fold (least x l).
  destruct (Q.min_spec u (least x l)) as [[_ K]|[_ K]]; [exists u|exists y]; (split; [cbn in *; tauto|]); [exact K|rewrite K; exact E].
Qed.
Lemma is_min_least m x l : is_min m (l ++ [x]) -> m == least x l.
Proof.
  intros [(y & I & E) L]. destruct (least_low x l) as [A B]. destruct (least_in x l) as (z & Iz & Ez). apply Qle_antisym.
  - rewrite Ez. apply L. rewrite in_app_iff. cbn in *. tauto.
  - rewrite <- E. rewrite in_app_iff in I. destruct I as [I|[<-|[]]]; auto.
Qed.

(** ** the values of a row *)
Definition vals (s : assignment) (attr : string) (x : oneint) : list Q :=
  match getattr x attr with Ok f => if not_none f then [fv s f] else [] | Err _ => [] end.
Lemma vals_operands s attr l fs : rmap (fun x => getattr x attr) l = Ok fs -> map (fv s) (filter not_none fs) = flat_map (vals s attr) l.
Proof.
  rewrite rmap_ok. induction 1 as [|x f l fs E F IH]; [reflexivity|]. cbn [filter flat_map]. unfold vals at 1. rewrite E. destruct (not_none f); cbn [map app]; now rewrite IH.
Qed.
Ltac attrs I := cbn [plain_quantities In] in I; repeat (destruct I as [<-|I]; [|]); try destruct I.

Section One.
Context (s : assignment) (d : dispatch) (t : nat) (f : freq) (fl : flags).
Lemma plain_vals a x attr : asset_shape a t f fl [x] -> (forall c, a <> AEVs c) -> oi_eq d t s x -> In attr plain_quantities -> (exists g, getattr x attr = Ok g) ->
  eqs (vals s attr x) (single d t attr (PAsset a)).
Proof.
  intros SH NE V I (g & G). destruct (plain_reading s d t f fl a x attr SH NE V I) as [_ K]. cbn [single]. unfold vals, reading in *. rewrite G in *.
  assert (not_none g = true) as NN.
  { destruct a as [b|b|b|b|b|b|n|n]; cbn [asset_shape] in SH; [..|]; try (now destruct (NE b)); destruct SH as (r & X & _); injection X as ->; attrs I; cbn in G; try discriminate G; injection G as <-; reflexivity. }
  rewrite NN. constructor; [|constructor]. destruct g; try discriminate; exact K.
Qed.
Lemma eqs_map {A} (g h : A -> Q) l : (forall x, In x l -> g x == h x) -> eqs (map g l) (map h l).
Proof. induction l as [|x l IH]; intros H; constructor; [apply H; now left|apply IH; intros; apply H; now right]. Qed.
Lemma flat_single {A} (g : A -> list Q) (h : A -> Q) l : (forall x, In x l -> g x = [h x]) -> flat_map g l = map h l.
Proof. induction l as [|x l IH]; intros H; [reflexivity|]. cbn. rewrite (H x (or_introl eq_refl)), IH by (intros; apply H; now right). reflexivity. Qed.
Lemma flat_map_map {A B C} (g : B -> list C) (h : A -> B) l : flat_map g (map h l) = flat_map (fun x => g (h x)) l.
Proof. induction l as [|x l IH]; [reflexivity|]. cbn. now rewrite IH. Qed.
Lemma flat_map_flat {A B C} (g : B -> list C) (h : A -> list B) l : flat_map g (flat_map h l) = flat_map (fun x => flat_map g (h x)) l.
Proof. induction l as [|x l IH]; [reflexivity|]. cbn. now rewrite flat_map_app, IH. Qed.

Lemma ev_vals c S0 S1 E Sp xs attr : evs_shape c t f fl xs S0 S1 E Sp -> asset_fine (AEVs c) -> Forall (oi_eq d t s) xs -> In attr plain_quantities ->
  ((forall e k, (e < n_events c)%nat -> (k < n_chargers c)%nat -> exists g, getattr (OIEv (E e k)) attr = Ok g) -> eqs (flat_map (vals s attr) (map OIEv (grid E (n_events c) (n_chargers c)))) (single d t attr (PEv c))) /\
  ((forall e, (e < n_events c)%nat -> exists g, getattr (OIEvSpill (Sp e 0%nat)) attr = Ok g) -> eqs (flat_map (vals s attr) (map OIEvSpill (grid Sp (n_events c) (List.length (ev_spill_chargers c))))) (single d t attr (PEvSpill c))).
Proof.
  intros (-> & _ & SE & SSp) (L1 & Hn & Hc) V I. rewrite Forall_app in V. destruct V as [V1 V2]. rewrite Forall_forall in V1, V2. split; intros G.
  - unfold grid. rewrite flat_map_map, flat_map_flat. cbn [single]. apply eqs_flat. intros e Je. apply in_seq in Je.
    rewrite flat_map_map, (flat_single _ (fun k => reading s attr (OIEv (E e k)))).
    + apply eqs_map. intros k Jk. apply in_seq in Jk. destruct (nth_error_lt (ev_event_cfgs c) e ltac:(unfold n_events in *; lia)) as (ec & Ee). destruct (nth_error_lt (ev_chargers c) k ltac:(unfold n_chargers in *; lia)) as (cc & Ek).
      destruct (SE e ec k cc Ee Ek) as (Q1 & _ & Q2 & _ & Q3 & _).
      assert (In (OIEv (E e k)) (map OIEv (grid E (n_events c) (n_chargers c)))) as J by (apply in_map, in_grid; exists e, k; splits; auto; unfold n_events, n_chargers; lia).
      specialize (V1 _ J). cbn [oi_eq] in V1. rewrite Q1, Q2, Q3 in V1. destruct V1 as (A1 & A2 & A3 & A4 & A5). destruct (G e k ltac:(unfold n_events; lia) ltac:(unfold n_chargers; lia)) as (g & Eg).
      unfold reading. rewrite Eg. assert (fv s (none_to_zero g) == fv s g) as -> by (destruct g; reflexivity).
      attrs I; cbn in Eg; try discriminate Eg; injection Eg as <-; cbn; first [reflexivity|assumption].
    + intros k Jk. apply in_seq in Jk. destruct (nth_error_lt (ev_event_cfgs c) e ltac:(unfold n_events in *; lia)) as (ec & Ee). destruct (nth_error_lt (ev_chargers c) k ltac:(unfold n_chargers in *; lia)) as (cc & Ek).
      destruct (SE e ec k cc Ee Ek) as (_ & _ & _ & _ & _ & _ & CS & DS & (v & LS & _) & Q8 & Q9).
      destruct (G e k ltac:(unfold n_events in *; lia) ltac:(unfold n_chargers in *; lia)) as (g & Eg). unfold vals, reading. rewrite Eg.
      assert (not_none g = true) as NN.
      { assert (not_none (eoi_charge (E e k)) = true) as N1 by (destruct CS as [(x & b & -> & _)|(-> & _)]; reflexivity).
        assert (not_none (eoi_discharge (E e k)) = true) as N2 by (unfold discharge_shape in DS; destruct (_ && _)%bool; [destruct DS as (x & b & -> & _)|destruct DS as (-> & _)]; reflexivity).
        attrs I; cbn in Eg; try discriminate Eg; injection Eg as <-; try assumption; try reflexivity; rewrite ?LS, ?Q8, ?Q9; reflexivity. }
      rewrite NN. destruct g; try discriminate; reflexivity.
  - rewrite L1 in *. unfold grid. rewrite flat_map_map, flat_map_flat. cbn [single].
    rewrite (flat_single _ (fun e => reading s attr (OIEvSpill (Sp e 0%nat)))).
    + apply eqs_map. intros e Je. apply in_seq in Je. destruct (nth_error_lt (ev_event_cfgs c) e ltac:(unfold n_events in *; lia)) as (ec & Ee). destruct (nth_error_lt (ev_spill_chargers c) 0 ltac:(lia)) as (cc & Ek).
      destruct (SSp e ec 0%nat cc Ee Ek) as (Q1 & _ & Q2 & _ & Q3 & _ & _ & _ & _ & Q8 & Q9).
      assert (In (OIEvSpill (Sp e 0%nat)) (map OIEvSpill (grid Sp (n_events c) 1))) as J by (apply in_map, in_grid; exists e, 0%nat; splits; auto; unfold n_events; lia).
      specialize (V2 _ J). cbn [oi_eq] in V2. rewrite Q1, Q2 in V2. destruct V2 as (A1 & A2 & A3). destruct (G e ltac:(unfold n_events in *; lia)) as (g & Eg).
      unfold reading. rewrite Eg. assert (fv s (none_to_zero g) == fv s g) as -> by (destruct g; reflexivity).
      attrs I; cbn in Eg; try discriminate Eg; injection Eg as <-; cbn; rewrite ?Q8, ?Q9; first [reflexivity|assumption].
    + intros e Je. apply in_seq in Je. cbn [seq map flat_map]. rewrite app_nil_r. destruct (nth_error_lt (ev_event_cfgs c) e ltac:(unfold n_events in *; lia)) as (ec & Ee). destruct (nth_error_lt (ev_spill_chargers c) 0 ltac:(lia)) as (cc & Ek).
      destruct (SSp e ec 0%nat cc Ee Ek) as (_ & _ & _ & _ & _ & _ & CS & DS & (v & LS & _) & Q8 & Q9).
      destruct (G e ltac:(unfold n_events in *; lia)) as (g & Eg). unfold vals, reading. rewrite Eg.
      assert (not_none g = true) as NN.
      { assert (not_none (eoi_charge (Sp e 0%nat)) = true) as N1 by (destruct CS as [(x & b & -> & _)|(-> & _)]; reflexivity).
        assert (not_none (eoi_discharge (Sp e 0%nat)) = true) as N2 by (unfold discharge_shape in DS; destruct (_ && _)%bool; [destruct DS as (x & b & -> & _)|destruct DS as (-> & _)]; reflexivity).
        attrs I; cbn in Eg; try discriminate Eg; injection Eg as <-; try assumption; try reflexivity; rewrite ?LS, ?Q8, ?Q9; reflexivity. }
      rewrite NN. destruct g; try discriminate; reflexivity.
Qed.
End One.

Section Rows.
Context (c : site_cfg) (assets : list asset) (fl : flags) (iv : interval_vars) (lo hi : nat) (cs : list constr) (P : program c assets fl iv lo hi cs).
Lemma row_values d s t row attr ty k nm : eq_of d s iv -> nth_error iv t = Some row -> In attr plain_quantities -> map_type ty = Ok k ->
  (forall x, In x row -> matches k nm x = true -> exists g, getattr x attr = Ok g) ->
  eqs (flat_map (vals s attr) (filter (matches k nm) row)) (flat_map (single d t attr) (filter (picked ty nm) (pieces assets))).
Proof.
  intros V E I M GA. specialize (V t row E). destruct (pr_shape _ _ _ _ _ _ _ P t row E) as (r & xss & -> & SR & F).
  assert (Forall asset_fine assets) as FN by (apply (pr_fine _ _ _ _ _ _ _ P); intros ->; destruct t; discriminate).
  inversion V as [|? ? V1 V2]; subst. unfold pieces. clear V.
  assert (forall A (p : A -> bool) x l, filter p (x :: l) = (filter p [x] ++ filter p l)%list) as FC by (intros A p x l; cbn; destruct (p x); reflexivity).
  rewrite (FC _ (matches k nm)), (FC _ (picked ty nm)), !flat_map_app. apply eqs_app.
  - cbn [app filter]. rewrite (matches_picked ty k nm (OISite r) PSite M) by (split; [reflexivity|apply SR]). destruct (picked ty nm PSite) eqn:PK; [|constructor].
    destruct (GA (OISite r)) as (g & Eg); [now left|rewrite (matches_picked ty k nm (OISite r) PSite M); auto; split; [reflexivity|apply SR]|].
    cbn [flat_map]. rewrite !app_nil_r. unfold vals. rewrite Eg. cbn [oi_eq oi_val] in V1. unfold vset in V1. destruct V1 as [W1 W2].
    attrs I; cbn in Eg; try discriminate Eg; injection Eg as <-; cbn; repeat constructor; rewrite ?W1, ?W2; reflexivity.
  - cbn [app]. assert (forall x, In x (List.concat xss) -> matches k nm x = true -> exists g, getattr x attr = Ok g) as GB by (intros; apply GA; auto; now right).
    clear -F FN V2 GB I M. revert V2 GB. induction F as [|a xs assets xss AS F IH]; intros V2 GB; [constructor|].
    inversion FN as [|? ? FA FB]; subst. cbn [List.concat flat_map] in *. rewrite Forall_app in V2. destruct V2 as [VA VB]. rewrite !filter_app, !flat_map_app. apply eqs_app; [|apply IH; auto; intros x Ix; apply GB; cbn; apply in_app_iff; auto].
    assert (forall x, In x xs -> matches k nm x = true -> exists g, getattr x attr = Ok g) as GX by (intros x Ix; apply GB; cbn; apply in_app_iff; auto). clear IH GB F FB VB.
    destruct a as [b|b|b|b|b|b|n|n]; cbn [pieces_of].
    4:{ cbn [asset_shape] in AS. destruct AS as (S0 & S1 & G & Sp & AS). destruct (ev_vals s d t (sc_freq c) fl b S0 S1 G Sp xs attr AS FA VA I) as (K1 & K2).
        destruct (ev_reading s d t (sc_freq c) fl b S0 S1 G Sp xs attr AS FA VA I) as (R1 & R2 & _). destruct FA as (L1 & _). destruct AS as (-> & _). rewrite Forall_forall in R1, R2.
        rewrite filter_app, flat_map_app.
        rewrite (filter_const (matches k nm) (picked ty nm (PEv b))) by (intros x J; eapply matches_picked; eauto). rewrite (filter_const (matches k nm) (picked ty nm (PEvSpill b))) by (intros x J; eapply matches_picked; eauto).
        cbn [filter]. assert (forall z2, flat_map (single d t attr) (if picked ty nm (PEv b) then PEv b :: z2 else z2) = (flat_map (single d t attr) (if picked ty nm (PEv b) then [PEv b] else []) ++ flat_map (single d t attr) z2)%list) as SPL by (intros; destruct (picked ty nm (PEv b)); cbn; rewrite ?app_nil_r; auto).
        rewrite SPL. clear SPL. apply eqs_app.
        - destruct (picked ty nm (PEv b)) eqn:PK; [|constructor]. cbn [flat_map]. rewrite app_nil_r. apply K1. intros e k' He Hk. apply GX; [apply in_app_iff; left; apply in_map, in_grid; eauto|]. rewrite <- PK. eapply matches_picked; eauto. apply R1. apply in_map, in_grid; eauto.
        - destruct (picked ty nm (PEvSpill b)) eqn:PK; [|constructor]. cbn [flat_map]. rewrite app_nil_r. apply K2. intros e He.
          assert (In (OIEvSpill (Sp e 0%nat)) (map OIEvSpill (grid Sp (n_events b) (List.length (ev_spill_chargers b))))) as J by (apply in_map, in_grid; exists e, 0%nat; splits; auto; lia).
          apply GX; [apply in_app_iff; now right|]. rewrite <- PK. eapply matches_picked; eauto. }
    all: pose proof AS as AS'; cbn [asset_shape] in AS; destruct AS as (r & -> & _); apply Forall_inv in VA; pose proof (plain_reading s d t (sc_freq c) fl _ _ attr AS' ltac:(discriminate) VA I) as [K1 _];
      cbn [filter]; rewrite (matches_picked ty k nm _ _ M K1); destruct (picked ty nm _) eqn:PK; [|constructor]; cbn [flat_map]; rewrite !app_nil_r; eapply plain_vals; eauto; [discriminate|]; apply GX; [now left|]; rewrite <- PK; eapply matches_picked; eauto.
Qed.

Lemma cared_below v : cared iv v -> (v_id v < hi)%nat.
Proof.
  intros (row & x & Ir & Ix & K). eapply (pr_vars _ _ _ _ _ _ _ P); [exact Ir|]. apply in_flat_map. exists x. split; auto.
  destruct x; cbn [must_vars bal_vars oi_vars] in *; unfold bal_vars in K; cbn in K; rewrite ?in_app_iff in *; cbn [In fvars] in *; tauto.
Qed.
Lemma attr_cared t row x attr g v : nth_error iv t = Some row -> In x row -> In attr plain_quantities -> getattr x attr = Ok g -> In v (fvars g) -> cared iv v.
Proof.
  intros E Ix I G Iv. exists row, x. splits; [eapply nth_error_In; eauto|auto|]. eapply reading_vars; [|exact G|exact I|].
  - intros r ->. eapply spill_soc; eauto.
  - destruct g; exact Iv.
Qed.
Lemma eq_of_agree d s s' : (forall id, (id < hi)%nat -> s' id = s id) -> eq_of d s iv -> eq_of d s' iv.
Proof.
  intros A V t row E. specialize (V t row E). rewrite Forall_forall in *. intros x Ix. specialize (V x Ix).
  assert (forall v, In v (oi_vars x) -> s' (v_id v) = s (v_id v)) as K.
  { intros v Iv. apply A. eapply (pr_vars _ _ _ _ _ _ _ P); [eapply nth_error_In; eauto|]. apply in_flat_map. eauto. }
  assert (forall f, incl (fvars f) (oi_vars x) -> fv s' f = fv s f) as KF by (intros f L; apply fv_agree; auto). clear A.
  destruct x; cbn [oi_eq oi_val oi_vars] in *; unfold vset in *.
  5-6: rewrite !KF by (intros v Iv; rewrite !in_app_iff; tauto); exact V.
  all: rewrite !K by (cbn; tauto); exact V.
Qed.

(** ** operands *)
Lemma concat_rmap {A B} (f : A -> res B) l fs : rmap f l = Ok fs -> forall x, In x l -> exists g, f x = Ok g /\ In g fs.
Proof. rewrite rmap_ok. induction 1 as [|y g l fs E F IH]; intros x []; [subst; exists g; split; [auto|now left]|]. destruct (IH x H) as (g' & E' & I'). exists g'. split; auto. now right. Qed.
Lemma rmap_in {A B} (f : A -> res B) l fs : rmap f l = Ok fs -> forall g, In g fs -> exists x, In x l /\ f x = Ok g.
Proof. rewrite rmap_ok. induction 1 as [|y g l fs E F IH]; intros g' []; [subst; exists y; split; [now left|auto]|]. destruct (IH g' H) as (x & I' & E'). exists x. split; auto. now right. Qed.
Lemma picked_values d s attr ty k nm : eq_of d s iv -> In attr plain_quantities -> map_type ty = Ok k ->
  (forall row x, In row iv -> In x row -> matches k nm x = true -> exists g, getattr x attr = Ok g) ->
  eqs (flat_map (vals s attr) (List.concat (map (filter (matches k nm)) iv))) (flat_map (fun t => flat_map (single d t attr) (filter (picked ty nm) (pieces assets))) (seq 0 (n_intervals c))).
Proof.
  intros V I M GA. rewrite <- flat_map_concat_map, flat_map_flat. rewrite <- (map_nth_seq iv []) at 1. rewrite flat_map_map, (pr_len _ _ _ _ _ _ _ P). apply eqs_flat. intros t It. apply in_seq in It.
  assert (nth_error iv t = Some (nth t iv [])) as E by (apply nth_error_nth'; rewrite (pr_len _ _ _ _ _ _ _ P); lia).
  eapply row_values; eauto. intros x. apply GA. eapply nth_error_In; eauto.
Qed.
Context (Hn : (0 < n_intervals c)%nat).
Lemma many_operands_sem m vs : In (t_variable (m_variables m)) plain_quantities -> many_operands iv m = Ok vs ->
  exists fs, vs = (fs ++ [FFloat (m_constant m)])%list /\ (forall f v, In f fs -> In v (fvars f) -> cared iv v) /\
    forall d s, eq_of d s iv -> eqs (map (fv s) fs) (many_values (single d) c assets m).
Proof.
  intros I H. unfold many_operands in H. rewrite rbind_ok in H. destruct H as (ls & HA & H). rewrite rbind_ok in H. destruct H as (gs & HG & [= <-]).
  exists (filter not_none gs). split; auto. set (attr := t_variable (m_variables m)) in *. set (k0 := m_variables m) in *.
  assert (iv <> []) as NE by (intros X; pose proof (pr_len _ _ _ _ _ _ _ P) as L; rewrite X in L; cbn in L; lia).
  assert (exists ty k nm, map_type ty = Ok k /\ ls = map (filter (matches k nm)) iv /\ forall p, picked ty nm p = many_picks k0 p) as (ty & k & nm & M & -> & PK).
  { unfold many_assets in HA. unfold many_picks, filter_all_intervals_str in *. destruct (opt_eqb (t_asset_type k0) "*") eqn:ST.
    - exists None, None, None. destruct (t_asset_type k0) as [ty|]; [|discriminate]. apply String.eqb_eq in ST. subst ty.
      splits; auto. destruct iv; [congruence|]. cbn [map_type type_mapper rbind] in HA. injection HA as <-. reflexivity.
    - destruct (t_asset_name k0) as [n|]; cbn [is_none] in HA.
      + injection HA as <-. exists None, None, (Some n). splits; auto.
      + assert (exists k, map_type (t_asset_type k0) = Ok k /\ ls = filter_all_intervals iv k None) as (k & M & ->).
        { destruct iv; [congruence|]. rewrite rbind_ok in HA. destruct HA as (k & M & X). injection X as <-. eauto. }
        exists (t_asset_type k0), k, None. splits; auto. intros p. unfold picked. cbn. now rewrite andb_true_r. }
  split.
  - intros f v If Iv. apply filter_In in If. destruct If as [If _]. destruct (rmap_in _ _ _ HG f If) as (x & Ix & G). apply in_concat in Ix. destruct Ix as (row' & Ir & Ix). apply in_map_iff in Ir. destruct Ir as (row & <- & Ir).
    apply filter_In in Ix. destruct Ix as [Ix _]. apply In_nth_error in Ir. destruct Ir as (t & E). eapply attr_cared; eauto.
  - intros d s V. rewrite (vals_operands _ _ _ _ HG). unfold many_values.
    eapply eqs_trans; [eapply (picked_values d s attr ty k nm V I M)|].
    + intros row x Ir Ix Mx. destruct (concat_rmap _ _ _ HG x) as (g & G & _); [|eauto]. apply in_concat. exists (filter (matches k nm) row). split; [now apply in_map|]. apply filter_In. auto.
    + apply eqs_flat. intros t _. rewrite (filter_ext _ _ PK). apply eqs_refl.
Qed.
Lemma two_operand_sem t x f : two_term_checks x = Ok tt -> grid_operand x -> two_term_operand iv t x = Ok f ->
  (forall v, In v (fvars f) -> cared iv v) /\ forall d s, eq_of d s iv -> fv s f == operand_value (quantity d) t x.
Proof.
  intros CH GO H. destruct x as [k|q]; cbn [two_term_operand operand_value] in *; [|injection H as <-; split; [intros v []|reflexivity]].
  rewrite rbind_ok in H. destruct H as (l & HF & H). rewrite rbind_ok in H. destruct H as (x & HX & H).
  unfold filter_objective_variables in HF. rewrite rbind_ok in HF. destruct HF as (row & E & [= <-]). rewrite py_index_nat, of_option_ok in E.
  destruct (pr_shape _ _ _ _ _ _ _ P t row E) as (r & xss & -> & SR & _).
  assert (matches None (t_asset_name k) (OISite r) = true) as MS.
  { unfold matches. cbn [andb]. destruct (t_asset_name k) as [n|] eqn:EN; auto. cbn [oi_name]. rewrite (proj1 SR).
    cbn [two_term_checks] in CH. rewrite EN in CH. destruct (is_none (t_asset_type k) || opt_eqb (t_asset_type k) "site")%bool; [|discriminate]. cbn [is_none opt_eqb orb] in CH. rewrite String.eqb_sym. destruct (n =? "site"); [reflexivity|discriminate]. }
  cbn [filter] in HX. rewrite MS in HX. injection HX as <-.
  destruct GO as [GO|[GO|[]]]; rewrite <- GO in *; cbn in H; injection H as <-.
  all: split; [intros v [<-|[]]; exists (OISite r :: List.concat xss)%list, (OISite r); splits; [eapply nth_error_In; eauto|now left|left; cbn; tauto]|].
  all: intros d s V; specialize (V t _ E); apply Forall_inv in V; cbn [oi_eq oi_val] in V; unfold vset in V; destruct V as [V1 V2]; cbn; rewrite ?V1, ?V2; reflexivity.
Qed.
End Rows.

(** ** the optimizer's building blocks keep a program well formed *)
Lemma wf_grow o o' ks : wf_opt o -> o_obj o = None -> o_obj o' = o_obj o -> (o_next o <= o_next o')%nat -> cons_of o' = (cons_of o ++ ks)%list -> (forall v, In v (cs_vars ks) -> (v_id v < o_next o')%nat) -> wf_opt o'.
Proof.
  intros W N E L C K v I. rewrite all_occ_iff in I. unfold wf_opt in W. setoid_rewrite all_occ_iff in W.
  rewrite E, N in I. rewrite N in W. destruct I as [(e & X & _)|I]; [discriminate|]. rewrite C in I. unfold cs_vars in *. rewrite flat_map_app, in_app_iff in I. destruct I as [I|I]; [|auto]. specialize (W v (or_intror I)). lia.
Qed.
