(** * Rows: the objects of one interval of a site: allocation of EVs, assets and rows (proofs) *)
From Verif Require Import Base Pulp Params Optimizer Types Assets EVs Site Emit Prim Spec SpecSwitch Layout.
Open Scope Q_scope.

Lemma Forall2_choice {A B C} (P : A -> B -> Prop) (wrap : C -> B) (Q : A -> C -> Prop) l ys :
  (forall x y, P x y -> exists r, y = wrap r /\ Q x r) -> Forall2 P l ys ->
  exists rs, ys = map wrap rs /\ Forall2 Q l rs.
Proof.
  intros H. induction 1 as [|x y l ys Hxy _ (rs & -> & IH)].
  - exists []. split; constructor.
  - destruct (H _ _ Hxy) as (r & -> & Hr). exists (r :: rs). split; [reflexivity|now constructor].
Qed.
Lemma Forall2_impl {A B} (P Q : A -> B -> Prop) l ys :
  (forall x y, In x l -> P x y -> Q x y) -> Forall2 P l ys -> Forall2 Q l ys.
Proof.
  intros H F. induction F; constructor.
  - apply H; [now left|auto].
  - apply IHF. intros; apply H; [now right|auto].
Qed.
Lemma Forall2_nth_l {A B} (P : A -> B -> Prop) l ys : Forall2 P l ys ->
  forall k x, nth_error l k = Some x -> exists y, nth_error ys k = Some y /\ P x y.
Proof.
  induction 1; intros k z; [destruct k; discriminate|].
  destruct k; simpl; [|apply IHForall2]. intros E; injection E as <-. eauto.
Qed.
Lemma Forall2_and_r {A B} (P Q : A -> B -> Prop) l ys : Forall2 P l ys -> Forall2 Q l ys -> Forall2 (fun x y => P x y /\ Q x y) l ys.
Proof. induction 1; intros F; inversion F; subst; constructor; auto. Qed.
Lemma Forall2_len {A B} (P : A -> B -> Prop) l ys : Forall2 P l ys -> List.length l = List.length ys.
Proof. induction 1; simpl; congruence. Qed.
Lemma enum_nth {A} (l : list A) k : nth_error (enumerate l) k = option_map (fun x => (k, x)) (nth_error l k).
Proof.
  unfold enumerate. assert (forall n, nth_error (enum_from n l) k = option_map (fun x => ((n + k)%nat, x)) (nth_error l k)) as H.
  { revert k. induction l; intros k n; [destruct k; reflexivity|]. destruct k; simpl.
    - now rewrite Nat.add_0_r.
    - rewrite IHl. destruct (nth_error l k); simpl; [|reflexivity]. f_equal. f_equal. lia. }
  apply H.
Qed.
Lemma map_nth_seq {A} (l : list A) d : map (fun k => nth k l d) (seq 0 (List.length l)) = l.
Proof.
  apply nth_ext with (d := d) (d' := d).
  - now rewrite map_length, seq_length.
  - intros n H. rewrite map_length, seq_length in H.
    rewrite (nth_indep _ d (nth 0 l d)) by (rewrite map_length, seq_length; lia).
    rewrite (map_nth (fun k => nth k l d)). rewrite seq_nth by lia. reflexivity.
Qed.
(** a list paired with [enumerate l] is a function of the index *)
Lemma Forall2_enum {A B} (P : nat * A -> B -> Prop) l ys (dft : B) : Forall2 P (enumerate l) ys ->
  ys = map (fun k => nth k ys dft) (seq 0 (List.length l)) /\
  forall k x, nth_error l k = Some x -> P (k, x) (nth k ys dft).
Proof.
  intros H. assert (List.length ys = List.length l) as L.
  { rewrite <- (enum_from_length l 0). symmetry. eapply Forall2_len; eauto. }
  split.
  - rewrite <- L. symmetry. apply map_nth_seq.
  - intros k x E. destruct (Forall2_nth_l _ _ _ H k (k, x)) as (y & E1 & E2).
    + rewrite enum_nth, E. reflexivity.
    + rewrite (nth_error_nth ys k dft E1). exact E2.
Qed.

Definition dummy_var : lpvar := mkVar 0 "" false None None.
Definition dummy_cfg : evs_cfg := mkEvsCfg "" [] [] [] [].
Definition dummy_ev : ev_oi :=
  mkEvOI dummy_cfg 0 0 (mkEventCfg "" 0 0) 0 (mkChargerCfg "" 0 0) FNone FNone FNone FNone FNone FNone FNone.

Definition socs_shape (create : bool) (ec : charge_event_cfg) (p : fval * fval) : Prop :=
  if create then exists a b, p = (FVar a, FVar b) /\ cont a (Some 0) (Some (ce_capacity_mwh ec)) /\ cont b (Some 0) (Some (ce_capacity_mwh ec))
  else p = (FFloat 0, FFloat 0).

Definition event_shape (c : evs_cfg) (chargers : list charger_cfg) (i : nat) (f : freq) (fl : flags) (create disc is_spill : bool)
    (ee : nat * charge_event_cfg) (y : (fval * fval) * list ev_oi) : Prop :=
  socs_shape create (snd ee) (fst y) /\
  Forall2 (fun kc r => pair_shape c i f fl disc (fst ee) (snd ee) (fst (fst y)) (snd (fst y)) (fst kc) (snd kc) r) (enumerate chargers) (snd y).

Lemma own_vars_soc c i f fl disc e ec p0 p1 k cc r is_spill v :
  pair_shape c i f fl disc e ec p0 p1 k cc r -> In v (oi_vars (ev_wrap is_spill r)) ->
  In v (ev_own_vars (ev_wrap is_spill r)) \/ In v (fvars p0) \/ In v (fvars p1).
Proof.
  intros (_ & _ & _ & _ & _ & _ & _ & _ & _ & <- & <-). destruct is_spill; cbn; rewrite !in_app_iff; tauto.
Qed.

Lemma Forall_Forall2_r {A B} (P : B -> Prop) (l : list A) ys : Forall2 (fun _ y => P y) l ys -> Forall P ys.
Proof. induction 1; constructor; auto. Qed.

Lemma ev_event_alloc c chargers i f fl create disc is_spill e ec d :
  alloc (ev_event c chargers i f fl create disc is_spill e ec)
    (fun l => exists y, l = map (ev_wrap is_spill) (snd y) /\ event_shape c chargers i f fl create disc is_spill (e, ec) y)
    (flat_map oi_vars) (fun l s => Forall (oi_set d i s) l).
Proof.
  intros o a o' H. unfold ev_event in H. minv H.
  match goal with H : (if create then _ else _) o = Ok (?p, ?oo) |- _ => rename H into H0; set (socs := p) in *; set (o1 := oo) in *;
    assert ((o_next o <= o_next o1)%nat /\ o_cons o1 = o_cons o /\ o_obj o1 = o_obj o /\ socs_shape create ec socs /\
      (forall v, In v (fvars (fst socs)) \/ In v (fvars (snd socs)) -> (o_next o <= v_id v < o_next o1)%nat) /\
      reach (o_next o) (o_next o1) (fun s => fset s (fst socs) (d_ev_soc0 d (ev_name c) e i) /\ fset s (snd socs) (d_ev_soc1 d (ev_name c) e i)))
      as (L1 & C1 & O1 & S1 & V1 & R1)
  end.
  { clearbody socs o1. clear -H0. unfold socs_shape. destruct create.
    - minv H0. alloc_inv. splits; auto; try lia.
      + do 2 eexists. splits; [reflexivity|repeat split|repeat split].
      + cbn. intros v [[<-|[]]|[<-|[]]]; cbn; lia.
      + match goal with |- reach ?n _ _ => exists (tg n [d_ev_soc0 d (ev_name c) e i; d_ev_soc1 d (ev_name c) e i]) end.
        intros s H. cbn [fst snd fset v_id]. split; rewrite H by lia; rewrite ?tg_S by lia; apply tg_0.
    - minv H0. splits; auto; try lia.
      + cbn. intros v [[]|[]].
      + apply reach_true. simpl. auto. }
  clearbody socs o1. clear H0.
  eapply (alloc_forM _ _ (fun kc x => exists r, x = ev_wrap is_spill r /\ pair_shape c i f fl disc e ec (fst socs) (snd socs) (fst kc) (snd kc) r)) in H;
    [|intros kc _; apply (ev_pair_alloc c i f fl disc is_spill e ec (fst socs) (snd socs) (fst kc) (snd kc) d)].
  destruct H as (L2 & C2 & O2 & P2 & V2 & R2).
  destruct (Forall2_choice _ (ev_wrap is_spill) (fun kc r => pair_shape c i f fl disc e ec (fst socs) (snd socs) (fst kc) (snd kc) r) _ _ (fun x y H => H) P2) as (rs & -> & Hrs).
  splits; try congruence; try lia.
  - exists (socs, rs). split; [reflexivity|]. split; [exact S1|exact Hrs].
  - intros v I. apply in_flat_map in I. destruct I as (x & I & J). apply in_map_iff in I. destruct I as (r & <- & I).
    assert (In v (ev_own_vars (ev_wrap is_spill r)) \/ In v (fvars (fst socs)) \/ In v (fvars (snd socs))) as K.
    { assert (exists kc, pair_shape c i f fl disc e ec (fst socs) (snd socs) (fst kc) (snd kc) r) as (kc & PS).
      { clear -Hrs I. induction Hrs; [destruct I|]. destruct I as [->|I]; eauto. }
      eapply own_vars_soc; eauto. }
    destruct K as [K|K].
    + assert (o_next o1 <= v_id v < o_next o')%nat; [|lia]. apply V2. apply in_flat_map. exists (ev_wrap is_spill r). split; auto. now apply in_map.
    + apply V1 in K. lia.
  - eapply reach_impl; [|eapply reach_and; [|exact R1|exact R2]]; [|lia]. cbn beta. intros s ((A1 & A2) & A3).
    eapply Forall_Forall2_r. eapply Forall2_impl; [|exact A3]. cbn beta. intros x y _ A. exact (A A1 A2).
Qed.

Lemma Forall_concat {A} (P : A -> Prop) ls : Forall (Forall P) ls -> Forall P (List.concat ls).
Proof. induction 1; simpl; [constructor|]. apply Forall_app; auto. Qed.

Lemma flat_map_concat_map2 {A B} (f : A -> list B) ls : flat_map f (List.concat ls) = flat_map (flat_map f) ls.
Proof. induction ls; simpl; [reflexivity|]. now rewrite flat_map_app, IHls. Qed.

Definition y_dummy : (fval * fval) * list ev_oi := ((FNone, FNone), []).
Lemma evs_for_alloc c chargers i f fl create disc is_spill d :
  alloc (evs_one_interval_for c chargers i f fl create disc is_spill)
    (fun l => exists (S0 S1 : nat -> fval) (E : nat -> nat -> ev_oi),
       l = map (ev_wrap is_spill) (grid E (n_events c) (List.length chargers)) /\
       (forall e ec, nth_error (ev_event_cfgs c) e = Some ec -> socs_shape create ec (S0 e, S1 e)) /\
       (forall e ec k cc, nth_error (ev_event_cfgs c) e = Some ec -> nth_error chargers k = Some cc ->
          pair_shape c i f fl disc e ec (S0 e) (S1 e) k cc (E e k)))
    (flat_map oi_vars) (fun l s => Forall (oi_set d i s) l).
Proof.
  intros o a o' H. unfold evs_one_interval_for in H. minv H.
  match goal with H : forM _ _ _ = Ok _ |- _ => eapply (alloc_forM _ _
     (fun ee l => exists y, l = map (ev_wrap is_spill) (snd y) /\ event_shape c chargers i f fl create disc is_spill ee y)
     _ (fun _ l s => Forall (oi_set d i s) l)) in H;
    [|intros [e ec] _; apply (ev_event_alloc c chargers i f fl create disc is_spill e ec d)];
    destruct H as (L & C & O & P & V & R) end.
  apply (Forall2_choice _ (fun y => map (ev_wrap is_spill) (snd y)) (event_shape c chargers i f fl create disc is_spill)) in P; [|auto].
  destruct P as (ys & -> & P).
  splits; auto.
  - destruct (Forall2_enum _ _ _ y_dummy P) as [E1 E2].
    exists (fun e => fst (fst (nth e ys y_dummy))), (fun e => snd (fst (nth e ys y_dummy))), (fun e k => nth k (snd (nth e ys y_dummy)) dummy_ev).
    splits.
    + rewrite E1 at 1. unfold grid, n_events.
      rewrite flat_map_concat_map, concat_map, !map_map.
      f_equal. apply map_ext_in. intros e I. apply in_seq in I.
      destruct (nth_error (ev_event_cfgs c) e) as [ec|] eqn:Ee; [|apply nth_error_None in Ee; lia].
      destruct (E2 e ec Ee) as [_ F]. destruct (Forall2_enum _ _ _ dummy_ev F) as [G _]. rewrite G at 1. reflexivity.
    + intros e ec Ee. destruct (E2 e ec Ee) as [F _]. rewrite <- surjective_pairing. exact F.
    + intros e ec k cc Ee Ek. destruct (E2 e ec Ee) as [_ F]. destruct (Forall2_enum _ _ _ dummy_ev F) as [_ G]. exact (G k cc Ek).
  - rewrite flat_map_concat_map2. exact V.
  - eapply reach_impl; [|exact R]. cbn beta. intros s F. apply Forall_concat. eapply Forall_Forall2_r. exact F.
Qed.

Lemma evs_alloc c i f fl d :
  alloc (evs_one_interval c i f fl) (fun l => exists S0 S1 E Sp, evs_shape c i f fl l S0 S1 E Sp)
    (flat_map oi_vars) (fun l s => Forall (oi_set d i s) l).
Proof.
  intros o a o' H. unfold evs_one_interval in H. minv H.
  repeat match goal with H : evs_one_interval_for _ _ _ _ _ ?x ?y ?z _ = Ok _ |- _ =>
    apply (evs_for_alloc c _ i f fl x y z d) in H end.
  match goal with H1 : (o_next o <= _)%nat /\ _, H2 : (_ <= o_next o')%nat /\ _ |- _ =>
    destruct H1 as (L1 & C1 & O1 & (S0 & S1 & E & -> & SS & PP) & V1 & R1);
    destruct H2 as (L2 & C2 & O2 & (T0 & T1 & Sp & -> & TT & QQ) & V2 & R2) end.
  splits; try congruence; try lia.
  - exists (fun e => match S0 e with FVar v => v | _ => dummy_var end), (fun e => match S1 e with FVar v => v | _ => dummy_var end), E, Sp.
    unfold evs_shape. splits.
    + reflexivity.
    + intros e ec Ee. destruct (SS e ec Ee) as (x & y & EE & A & B). injection EE as -> ->. auto.
    + intros e ec k cc Ee Ek. destruct (SS e ec Ee) as (x & y & EE & A & B). injection EE as Ex Ey.
      specialize (PP e ec k cc Ee Ek). rewrite Ex, Ey in *. exact PP.
    + intros e ec k cc Ee Ek. specialize (QQ e ec k cc Ee Ek). specialize (TT e ec Ee). unfold socs_shape in TT. injection TT as Ex Ey. rewrite Ex, Ey in QQ. exact QQ.
  - intros v I. rewrite flat_map_app, in_app_iff in I. destruct I as [I|I]; [apply V1 in I|apply V2 in I]; lia.
  - eapply reach_impl; [|eapply reach_and; [|exact R1|exact R2]]; [|lia]. intros s [A B]. apply Forall_app. auto.
Qed.

Lemma single_alloc {m : M oneint} {P : oneint -> Prop} {d i} :
  alloc m P oi_vars (fun x s => oi_set d i s x) ->
  alloc (x <- m ;; ret [x]) (fun l => exists x, l = [x] /\ P x) (flat_map oi_vars) (fun l s => Forall (oi_set d i s) l).
Proof.
  intros A o a o' H. minv H. match goal with H : m _ = Ok _ |- _ => destruct (A _ _ _ H) as (L & C & O & PP & V & R) end.
  splits; eauto.
  - cbn. rewrite app_nil_r. exact V.
  - eapply reach_impl; [|exact R]. intros s B. constructor; auto.
Qed.

Lemma asset_alloc a i f fl d :
  alloc (asset_one_interval a i f fl) (asset_shape a i f fl) (flat_map oi_vars) (fun l s => Forall (oi_set d i s) l).
Proof.
  destruct a as [c|c|c|c|c|c|n|n]; cbn [asset_one_interval asset_shape].
  4: apply evs_alloc.
  all: eapply alloc_weaken; [eapply single_alloc; first [apply (battery_alloc c i f d)|apply (boiler_alloc c i f d)|apply (chp_alloc c i f d)|apply (hp_alloc c i f d)|apply (rg_alloc c i d)|apply (spill_alloc n i d)|apply (valve_alloc n i d)] | | cbn beta; auto | cbn beta; auto].
  all: cbn beta; intros l (x & -> & r & -> & S); cbn [asset_shape]; eauto.
Qed.

(** ** Rows *)
Definition row_shape (c : site_cfg) (assets : list asset) (fl : flags) (t : nat) (row : list oneint) : Prop :=
  exists r xss, row = (OISite r :: List.concat xss)%list /\ site_shape c r /\
    Forall2 (fun a xs => asset_shape a t (sc_freq c) fl xs) assets xss.

Lemma row_alloc c assets fl i d :
  alloc (s <- site_one_interval c i ;; xs <- forM assets (fun a => asset_one_interval a i (sc_freq c) fl) ;; ret (s :: List.concat xs)%list)
    (row_shape c assets fl i) (flat_map oi_vars) (fun l s => Forall (oi_set d i s) l).
Proof.
  intros o a o' H. minv H.
  match goal with H : site_one_interval _ _ _ = Ok _ |- _ => destruct (site_alloc c i d _ _ _ H) as (L1 & C1 & O1 & (r & -> & S) & V1 & R1) end.
  match goal with H : forM _ _ _ = Ok _ |- _ => eapply (alloc_forM _ _ (fun a xs => asset_shape a i (sc_freq c) fl xs) _ (fun _ l s => Forall (oi_set d i s) l)) in H;
    [|intros a' _; apply (asset_alloc a' i (sc_freq c) fl d)]; destruct H as (L2 & C2 & O2 & P2 & V2 & R2) end.
  splits; try congruence; try lia.
  - do 2 eexists. split; [reflexivity|]. auto.
  - cbn [flat_map]. intros v I. rewrite in_app_iff in I. rewrite flat_map_concat_map2 in I. destruct I as [I|I]; [apply V1 in I|apply V2 in I]; lia.
  - eapply reach_impl; [|eapply reach_and; [|exact R1|exact R2]]; [|lia]. cbn beta. intros s [A B]. constructor; auto.
    apply Forall_concat. eapply Forall_Forall2_r. exact B.
Qed.
