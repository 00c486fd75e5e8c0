(** * SemEv: meaning of the constraints emitted by EVs (proofs) *)
From Verif Require Import Base Pulp Params Optimizer Types Assets EVs Site Emit Prim Spec SpecSwitch SpecReport SpecRun Layout Rows Sem.
Open Scope Q_scope.

(** ** Arrays *)
Definition pair_is (a : evs_array) (e k : nat) (r : ev_oi) : Prop :=
  ea_charge a e k = eoi_charge r /\ ea_charge_bin a e k = eoi_charge_bin r /\
  ea_discharge a e k = eoi_discharge r /\ ea_discharge_bin a e k = eoi_discharge_bin r /\ ea_loss a e k = eoi_loss r.
Definition pair_same (a b : evs_array) (e k : nat) : Prop :=
  ea_charge a e k = ea_charge b e k /\ ea_charge_bin a e k = ea_charge_bin b e k /\
  ea_discharge a e k = ea_discharge b e k /\ ea_discharge_bin a e k = ea_discharge_bin b e k /\ ea_loss a e k = ea_loss b e k.

Lemma fill_all_spec l : forall a0 a, fill_all a0 l = Ok a ->
  ea_cfg a = ea_cfg a0 /\
  (forall r, In r l -> (eoi_event r < n_events (ea_cfg a0))%nat /\ (eoi_charger r < n_chargers (ea_cfg a0))%nat) /\
  (forall e k, (exists r, In r l /\ eoi_event r = e /\ eoi_charger r = k /\ pair_is a e k r) \/
     ((forall r, In r l -> ~ (eoi_event r = e /\ eoi_charger r = k)) /\ pair_same a a0 e k)) /\
  (forall e, (exists r, In r l /\ eoi_event r = e /\ ea_soc0 a e = eoi_soc0 r /\ ea_soc1 a e = eoi_soc1 r) \/
     ((forall r, In r l -> eoi_event r <> e) /\ ea_soc0 a e = ea_soc0 a0 e /\ ea_soc1 a e = ea_soc1 a0 e)).
Proof.
  induction l as [|r l IH]; intros a0 a H; simpl in H.
  - injection H as <-. splits; [reflexivity|intros r []| |].
    + intros e k. right. split; [intros r []|]. repeat split.
    + intros e. right. split; [intros r []|]. auto.
  - rewrite rbind_ok in H. destruct H as (a1 & H1 & H). unfold fill_array in H1.
    destruct (_ <? _)%nat eqn:E1; [|discriminate]. destruct (_ <? n_chargers _)%nat eqn:E2; [|discriminate]. cbn [andb] in H1.
    apply Nat.ltb_lt in E1, E2. injection H1 as H1. apply IH in H. destruct H as (C & R & P & Q).
    rewrite <- H1 in C, R. cbn [ea_cfg] in C, R. splits; auto.
    + intros r' [<-|I]; auto.
    + intros e k. destruct (P e k) as [(r' & I & A & B & D)|(N & S)].
      * left. exists r'. splits; auto. now right.
      * destruct (Nat.eq_dec (eoi_event r) e) as [Ee|Ee]; [destruct (Nat.eq_dec (eoi_charger r) k) as [Ek|Ek]|].
        -- left. exists r. splits; auto; [now left|]. destruct S as (S1 & S2 & S3 & S4 & S5). unfold pair_is. rewrite S1, S2, S3, S4, S5, <- H1.
           cbn. unfold upd2. rewrite Ee, Ek, !Nat.eqb_refl. cbn. splits; reflexivity.
        -- right. split; [intros r' [<-|I]; [tauto|auto]|]. destruct S as (S1 & S2 & S3 & S4 & S5). unfold pair_same. rewrite S1, S2, S3, S4, S5, <- H1.
           cbn. unfold upd2. destruct (Nat.eqb_spec k (eoi_charger r)); [congruence|]. rewrite andb_false_r. splits; reflexivity.
        -- right. split; [intros r' [<-|I]; [tauto|auto]|]. destruct S as (S1 & S2 & S3 & S4 & S5). unfold pair_same. rewrite S1, S2, S3, S4, S5, <- H1.
           cbn. unfold upd2. destruct (Nat.eqb_spec e (eoi_event r)); [congruence|]. splits; reflexivity.
    + intros e. destruct (Q e) as [(r' & I & A & B & D)|(N & S1 & S2)].
      * left. exists r'. splits; auto. now right.
      * destruct (Nat.eq_dec (eoi_event r) e) as [Ee|Ee].
        -- left. exists r. splits; auto; [now left| |]; [rewrite S1|rewrite S2]; rewrite <- H1; cbn; unfold upd1; now rewrite Ee, Nat.eqb_refl.
        -- right. split; [intros r' [<-|I]; auto|]. rewrite S1, S2, <- H1. cbn. unfold upd1. destruct (Nat.eqb_spec e (eoi_event r)); [congruence|auto].
Qed.

Lemma in_grid {A} (E : nat -> nat -> A) n m x : In x (grid E n m) <-> exists e k, (e < n)%nat /\ (k < m)%nat /\ x = E e k.
Proof.
  unfold grid. rewrite in_flat_map. split.
  - intros (e & I & J). apply in_map_iff in J. destruct J as (k & <- & J). apply in_seq in I, J. exists e, k. splits; auto; lia.
  - intros (e & k & He & Hk & ->). exists e. split; [apply in_seq; lia|]. apply in_map. apply in_seq. lia.
Qed.
Lemma grid_length {A} (E : nat -> nat -> A) n m : List.length (grid E n m) = (n * m)%nat.
Proof.
  unfold grid. assert (forall st, List.length (flat_map (fun e => map (E e) (seq 0 m)) (seq st n)) = (n * m)%nat) as H.
  { induction n; intros st; simpl; [reflexivity|]. rewrite app_length, map_length, seq_length, IHn. reflexivity. }
  apply H.
Qed.
Lemma nth_error_lt {A} (l : list A) k : (k < List.length l)%nat -> exists x, nth_error l k = Some x.
Proof. intros H. destruct (nth_error l k) eqn:E; eauto. apply nth_error_None in E. lia. Qed.

Lemma rmap_as_ev (w : bool) rs : rmap as_ev (map (ev_wrap w) rs) = Ok rs.
Proof. induction rs; simpl; [reflexivity|]. destruct w; simpl; rewrite IHrs; reflexivity. Qed.

(** what [create_evs_array] returns for the objects of one interval *)
Definition array_main (c : evs_cfg) (S0 S1 : nat -> lpvar) (E : nat -> nat -> ev_oi) (a : evs_array) : Prop :=
  ea_cfg a = c /\ (0 < n_events c)%nat /\ (0 < n_chargers c)%nat /\
  (forall e k, (e < n_events c)%nat -> (k < n_chargers c)%nat -> pair_is a e k (E e k)) /\
  (forall e, (e < n_events c)%nat -> ea_soc0 a e = FVar (S0 e) /\ ea_soc1 a e = FVar (S1 e)).
Definition array_spill (c : evs_cfg) (Sp : nat -> nat -> ev_oi) (a : evs_array) : Prop :=
  ea_cfg a = c /\ List.length (ev_spill_chargers c) = 1%nat /\ (0 < n_events c)%nat /\ (0 < n_chargers c)%nat /\
  (forall e, (e < n_events c)%nat -> pair_is a e 0%nat (Sp e 0%nat)) /\
  (forall e k, (0 < k)%nat -> pair_same a (empty_array c) e k).

Lemma create_main iv i c S0 S1 E Sp t f fl xs a :
  filter_objective_variables iv i (Some KEv) (Some (ev_name c)) = Ok (map OIEv (grid E (n_events c) (n_chargers c))) ->
  evs_shape c t f fl xs S0 S1 E Sp ->
  create_evs_array iv i (ev_name c) false = Ok a -> array_main c S0 S1 E a.
Proof.
  intros HF (_ & _ & SE & _) H. unfold create_evs_array in H. rewrite HF in H. cbn [rbind] in H.
  change OIEv with (ev_wrap false) in H. rewrite rmap_as_ev in H. cbn [rbind] in H.
  rewrite rbind_ok in H. destruct H as (r0 & H0 & H). apply hd_res_ok in H0. destruct H0 as (rest & H0).
  assert (In r0 (grid E (n_events c) (n_chargers c))) as I0 by (rewrite H0; now left).
  apply in_grid in I0. destruct I0 as (e0 & k0 & He0 & Hk0 & ->).
  assert (forall e k, (e < n_events c)%nat -> (k < n_chargers c)%nat ->
     eoi_cfg (E e k) = c /\ eoi_event (E e k) = e /\ eoi_charger (E e k) = k /\ eoi_soc0 (E e k) = FVar (S0 e) /\ eoi_soc1 (E e k) = FVar (S1 e)) as HE.
  { intros e k He Hk. destruct (nth_error_lt _ _ He) as (ec & Ee). destruct (nth_error_lt _ _ Hk) as (cc & Ek).
    destruct (SE e ec k cc Ee Ek) as (A1 & A2 & A3 & A4 & A5 & A6 & A7 & A8 & A9 & A10 & A11). splits; auto. }
  destruct (HE _ _ He0 Hk0) as (Ec & _). rewrite Ec in H.
  rewrite rbind_ok in H. destruct H as (u & _ & H). apply fill_all_spec in H. cbn [empty_array ea_cfg] in H.
  destruct H as (C & R & P & Q). unfold array_main. splits; auto; try lia.
  - intros e k He Hk. destruct (P e k) as [(r & I & A & B & D)|(N & _)].
    + apply in_grid in I. destruct I as (e' & k' & He' & Hk' & ->). destruct (HE _ _ He' Hk') as (_ & X & Y & _).
      rewrite X in A. rewrite Y in B. subst. exact D.
    + exfalso. destruct (HE _ _ He Hk) as (_ & X & Y & _). apply (N (E e k)); auto. apply in_grid. eauto.
  - intros e He. destruct (Q e) as [(r & I & A & B & D)|(N & _)].
    + apply in_grid in I. destruct I as (e' & k' & He' & Hk' & ->). destruct (HE _ _ He' Hk') as (_ & X & Y & Z1 & Z2).
      rewrite X in A. subst. now rewrite B, D, Z1, Z2.
    + exfalso. apply (N (E e k0)); [apply in_grid; eauto|]. now apply HE.
Qed.
Lemma create_spill iv i c S0 S1 E Sp t f fl xs a :
  filter_objective_variables iv i (Some KEvSpill) (Some (ev_name c)) = Ok (map OIEvSpill (grid Sp (n_events c) (List.length (ev_spill_chargers c)))) ->
  evs_shape c t f fl xs S0 S1 E Sp ->
  create_evs_array iv i (ev_name c) true = Ok a -> array_spill c Sp a.
Proof.
  intros HF (_ & _ & _ & SE) H. unfold create_evs_array in H. rewrite HF in H. cbn [rbind] in H.
  change OIEvSpill with (ev_wrap true) in H. rewrite rmap_as_ev in H. cbn [rbind] in H.
  rewrite rbind_ok in H. destruct H as (r0 & H0 & H). apply hd_res_ok in H0. destruct H0 as (rest & H0).
  set (p := List.length (ev_spill_chargers c)) in *.
  assert (In r0 (grid Sp (n_events c) p)) as I0 by (rewrite H0; now left).
  apply in_grid in I0. destruct I0 as (e0 & k0 & He0 & Hk0 & ->).
  assert (forall e k, (e < n_events c)%nat -> (k < p)%nat ->
     eoi_cfg (Sp e k) = c /\ eoi_event (Sp e k) = e /\ eoi_charger (Sp e k) = k) as HE.
  { intros e k He Hk. destruct (nth_error_lt _ _ He) as (ec & Ee). destruct (nth_error_lt _ _ Hk) as (cc & Ek).
    destruct (SE e ec k cc Ee Ek) as (A1 & A2 & A3 & A4 & A5 & A6 & A7 & A8 & A9 & A10 & A11). splits; auto. }
  destruct (HE _ _ He0 Hk0) as (Ec & _). rewrite Ec in H.
  rewrite rbind_ok in H. destruct H as (u & HL & H). apply rassert_ok, Nat.eqb_eq in HL. rewrite grid_length in HL.
  apply fill_all_spec in H. cbn [empty_array ea_cfg] in H. destruct H as (C & R & P & Q).
  assert (p = 1)%nat as Hp by nia. rewrite Hp in *.
  assert (0 < n_chargers c)%nat as Hn.
  { destruct (R (Sp e0 0%nat)) as [_ R2]; [apply in_grid; exists e0, 0%nat; auto|]. lia. }
  unfold array_spill. splits; auto; try lia.
  - intros e He. destruct (P e 0%nat) as [(r & I & A & B & D)|(N & _)].
    + apply in_grid in I. destruct I as (e' & k' & He' & Hk' & ->). destruct (HE _ _ He' Hk') as (_ & X & Y).
      rewrite X in A. rewrite Y in B. subst. exact D.
    + exfalso. assert (0 < 1)%nat as L1 by lia. destruct (HE _ _ He L1) as (_ & X & Y). apply (N (Sp e 0%nat)); auto. apply in_grid. exists e, 0%nat. auto.
  - intros e k Hk. destruct (P e k) as [(r & I & A & B & D)|(N & S)]; [|exact S].
    apply in_grid in I. destruct I as (e' & k' & He' & Hk' & ->). destruct (HE _ _ He' Hk') as (_ & X & Y). lia.
Qed.

(** ** The constraints *)
Definition pair_cs (c : evs_cfg) (f : freq) (cc : charger_cfg) (i e : nat) (x b : fval) : list constr :=
  match x with
  | FVar _ => [ cle (esub (fexpr x) (escale (fexpr b) (mw_to_mwh f (cg_max_mw cc)))) (econst 0);
                cle (eadd (eneg (fexpr x)) (escale (fexpr b) (mw_to_mwh f (cg_min_mw cc)))) (econst 0);
                cle (fexpr b) (econst (presence c e i)) ]
  | _ => []
  end.
Lemma pair_emits c f cc i e x b : emits (constrain_pair c f cc i e x b) (pair_cs c f cc i e x b).
Proof.
  destruct x; cbn [constrain_pair pair_cs]; try apply emits_ret.
  eapply emits_eq; [apply emits_bind; [apply emits_constrain|intros _; apply emits_bind; [apply emits_constrain|intros _]]|].
  - apply emits_lift. intros ce H. apply event_at_eq in H. subst ce. apply emits_constrain.
  - reflexivity.
Qed.
Definition minmax_cs (a : evs_array) (c : evs_cfg) (f : freq) (chargers : list charger_cfg) (i : nat) (allow : bool) : list constr :=
  flat_map (fun ee : nat * charge_event_cfg => flat_map (fun kc =>
      (pair_cs c f (snd kc) i (fst ee) (ea_charge a (fst ee) (fst kc)) (ea_charge_bin a (fst ee) (fst kc)) ++
      if allow then pair_cs c f (snd kc) i (fst ee) (ea_discharge a (fst ee) (fst kc)) (ea_discharge_bin a (fst ee) (fst kc)) else []))%list
    (enumerate chargers)) (enumerate (ev_event_cfgs c)).
Lemma minmax_emits a c f chargers i allow : emits (constrain_charge_discharge_min_max a c f chargers i allow) (minmax_cs a c f chargers i allow).
Proof.
  apply emits_forM_. intros ee _. apply emits_forM_. intros kc _. apply emits_bind; [apply pair_emits|intros _].
  destruct allow; [apply pair_emits|apply emits_ret].
Qed.
Definition single_cs (a : evs_array) (c : evs_cfg) : list constr :=
  (flat_map (fun ee : nat * charge_event_cfg => [cle (esum (map (fun k => fexpr (ea_charge_bin a (fst ee) k)) (seq 0 (n_chargers (ea_cfg a)))
                          ++ map (fun k => fexpr (ea_discharge_bin a (fst ee) k)) (seq 0 (n_chargers (ea_cfg a)))))
                   (econst 1)]) (enumerate (ev_event_cfgs c)) ++
  flat_map (fun kc : nat * charger_cfg => [cle (esum (map (fun e => fexpr (ea_charge_bin a e (fst kc))) (seq 0 (n_events (ea_cfg a)))
                          ++ map (fun e => fexpr (ea_discharge_bin a e (fst kc))) (seq 0 (n_events (ea_cfg a)))))
                   (econst 1)]) (enumerate (ev_chargers c)))%list.
Lemma single_emits a c : emits (constrain_single_charger_charge_event a c) (single_cs a c).
Proof. apply emits_bind; [|intros _]; apply emits_forM_; intros; apply emits_constrain. Qed.
Definition losses_cs (a : evs_array) (e : nat) (ec : charge_event_cfg) : list constr :=
  flat_map (fun kc : nat * charger_cfg => [ceq (escale (esum [fexpr (ea_charge a e (fst kc))]) (1 - ce_efficiency_pct ec))
                   (esum [fexpr (ea_loss a e (fst kc))])]) (enumerate (ev_chargers (ea_cfg a))).
Definition soc_c (a sp : evs_array) (e : nat) : constr :=
  let na := n_chargers (ea_cfg a) in
  let ns := n_chargers (ea_cfg sp) in
  ceq (esub (esub (esub (eadd (eadd (fexpr (ea_soc0 a e)) (sum_row (ea_charge a) e na))
                                           (sum_row (ea_charge sp) e ns))
                                     (sum_row (ea_discharge a) e na))
                               (sum_row (ea_discharge sp) e ns))
                         (sum_row (ea_loss a) e na))
                   (fexpr (ea_soc1 a e)).
Definition balance_cs (a sp : evs_array) : list constr :=
  flat_map (fun ee => (soc_c a sp (fst ee) :: losses_cs a (fst ee) (snd ee) ++ losses_cs sp (fst ee) (snd ee))%list) (enumerate (ev_event_cfgs (ea_cfg a))).
Lemma balance_emits a sp : emits (constrain_charge_event_electricity_balance a sp) (balance_cs a sp).
Proof.
  apply emits_forM_. intros ee _. cbv zeta. eapply emits_eq; [apply emits_bind; [apply emits_constrain|intros _; apply emits_bind; [|intros _]]|].
  - apply emits_forM_. intros; apply emits_constrain.
  - apply emits_forM_. intros; apply emits_constrain.
  - reflexivity.
Qed.
Definition link_cs (S0 T1 : nat -> lpvar) (n : nat) : list constr := map (fun e => ceq (evar (S0 e)) (evar (T1 e))) (seq 0 n).
Lemma link_emits old new c S0 S1 E T0 T1 F : array_main c T0 T1 F old -> array_main c S0 S1 E new ->
  emits (constrain_connection_charge_events old new) (link_cs S0 T1 (n_events c)).
Proof.
  intros (Co & _ & _ & _ & Ho) (Cn & _ & _ & _ & Hn). unfold constrain_connection_charge_events. rewrite Co, Cn.
  unfold link_cs. assert (forall e, In e (seq 0 (n_events c)) -> ea_soc1 old e = FVar (T1 e) /\ ea_soc0 new e = FVar (S0 e)) as H.
  { intros e I. apply in_seq in I. split; [apply Ho|apply Hn]; lia. }
  induction (seq 0 (n_events c)) as [|e l IH]; [apply emits_ret|].
  cbn [map connect_socs]. destruct (H e (or_introl eq_refl)) as [-> ->].
  eapply emits_eq; [apply emits_bind; [apply emits_constrain|intros _; apply IH; intros; apply H; now right]|reflexivity].
Qed.

(** ** One interval of the physical description *)
Definition evs_at (c : evs_cfg) (f : freq) (fl : flags) (d : dispatch) (t : nat) : Prop :=
  let nm := ev_name c in
  let ks := seq 0 (List.length (ev_chargers c)) in
  let es := seq 0 (List.length (ev_event_cfgs c)) in
  let ch := d_ev_charge d nm in
  let dc := d_ev_discharge d nm in
  let lo := d_ev_loss d nm in
  (forall e ec k cc, nth_error (ev_event_cfgs c) e = Some ec -> nth_error (ev_chargers c) k = Some cc ->
    0 <= ch e k t /\
    (ch e k t == 0 \/ (between (energy f (cg_min_mw cc)) (ch e k t) (energy f (cg_max_mw cc)) /\ can_charge fl c e t)) /\
    (if allow_evs_discharge fl
     then 0 <= dc e k t /\
          (dc e k t == 0 \/ (between (energy f (cg_min_mw cc)) (dc e k t) (energy f (cg_max_mw cc)) /\ 1 <= presence c e t))
     else dc e k t == 0) /\
    lo e k t == ch e k t * (1 - ce_efficiency_pct ec) /\ 0 <= lo e k t) /\
  (forall e ec cc, nth_error (ev_event_cfgs c) e = Some ec -> nth_error (ev_spill_chargers c) 0 = Some cc ->
    0 <= d_spill_charge d nm e t /\
    (d_spill_charge d nm e t == 0 \/
       (between (energy f (cg_min_mw cc)) (d_spill_charge d nm e t) (energy f (cg_max_mw cc)) /\ can_charge fl c e t)) /\
    d_spill_loss d nm e t == d_spill_charge d nm e t * (1 - ce_efficiency_pct ec) /\ 0 <= d_spill_loss d nm e t) /\
  (forall e, In e es ->
    at_most_one_nonzero (map (fun k => ch e k t) ks ++ map (fun k => dc e k t) ks)) /\
  (forall k, In k ks ->
    at_most_one_nonzero (map (fun e => ch e k t) es ++ map (fun e => dc e k t) es)) /\
  (forall e ec, nth_error (ev_event_cfgs c) e = Some ec ->
    between 0 (d_ev_soc0 d nm e t) (ce_capacity_mwh ec) /\ between 0 (d_ev_soc1 d nm e t) (ce_capacity_mwh ec) /\
    d_ev_soc1 d nm e t == d_ev_soc0 d nm e t + Qsum (map (fun k => ch e k t) ks) + d_spill_charge d nm e t
                          - Qsum (map (fun k => dc e k t) ks) - Qsum (map (fun k => lo e k t) ks)).

(** *** at most one binary, at most one quantity *)
Lemma Qsum_01_pos l : Forall (fun b => b == 0 \/ b == 1) l -> 0 <= Qsum l.
Proof. intros H. apply Qsum_nonneg. eapply Forall_impl; [|exact H]. cbn. intros a [E|E]; rewrite E; lra. Qed.
Lemma at_most_one_of_bins : forall (xs bs : list Q), Forall2 (fun x b => (b == 0 \/ b == 1) /\ (~ x == 0 -> b == 1)) xs bs ->
  Qsum bs <= 1 -> at_most_one_nonzero xs.
Proof.
  induction 1 as [|x b xs bs (B01 & Hxb) F IH]; intros HS.
  - intros i j x y H. destruct i; discriminate.
  - cbn [Qsum fold_right] in HS. fold (Qsum bs) in HS.
    assert (Forall (fun b => b == 0 \/ b == 1) bs) as FB. { clear -F. induction F; constructor; tauto. }
    pose proof (Qsum_01_pos _ FB) as Hp.
    assert (b == 1 -> forall j y, nth_error xs j = Some y -> y == 0) as Z.
    { intros B1 j y Ey. rewrite B1 in HS. assert (Qsum bs <= 0) as HS' by lra.
      clear -F FB HS' Ey. revert j Ey. induction F as [|x b xs bs (B & D) F IH]; intros [|j] E; try discriminate.
      - injection E as ->. cbn [Qsum fold_right] in HS'. fold (Qsum bs) in HS'. inversion FB; subst. pose proof (Qsum_01_pos _ H2).
        destruct (Qeq_dec y 0); auto. exfalso. specialize (D n). lra.
      - inversion FB; subst. eapply IH; eauto. cbn [Qsum fold_right] in HS'. fold (Qsum bs) in HS'. destruct B as [B|B]; rewrite B in HS'; lra. }
    intros [|i] [|j] y z Ei Ej Hy Hz; auto; cbn in Ei, Ej.
    + exfalso. injection Ei as ->. specialize (Hxb Hy). apply Hz. now apply (Z Hxb j).
    + exfalso. injection Ej as ->. specialize (Hxb Hz). apply Hy. now apply (Z Hxb i).
    + f_equal. eapply (IH ltac:(destruct B01 as [B|B]; rewrite B in HS; lra)); eauto.
Qed.
Lemma bins_of_at_most_one : forall xs, at_most_one_nonzero xs -> Qsum (map ind xs) <= 1.
Proof.
  induction xs as [|x xs IH]; intros H; cbn [map Qsum fold_right]; [lra|].
  fold (Qsum (map ind xs)). destruct (ind_spec x) as [[Z ->]|[Z ->]].
  - assert (Qsum (map ind xs) <= 1); [|lra]. apply IH. intros i j a b A B C D. specialize (H (S i) (S j) a b A B C D). lia.
  - assert (Qsum (map ind xs) == 0) as ->; [|lra]. apply Qsum_map_zero. intros y I. apply In_nth_error in I. destruct I as [j E].
    destruct (ind_spec y) as [[Y ->]|[Y _]]; [reflexivity|]. specialize (H 0%nat (S j) x y eq_refl E Z Y). discriminate.
Qed.

(** *** One pair *)
Lemma pair_var_sound c f cc t e v w s : cont v (Some 0) (Some (mw_to_mwh f (cg_max_mw cc))) -> is_binary_var w ->
  all_ok s (pair_cs c f cc t e (FVar v) (FVar w)) ->
  0 <= s (v_id v) /\ (s (v_id w) == 0 \/ s (v_id w) == 1) /\ (~ s (v_id v) == 0 -> s (v_id w) == 1) /\
  (s (v_id v) == 0 \/ (between (energy f (cg_min_mw cc)) (s (v_id v)) (energy f (cg_max_mw cc)) /\ 1 <= presence c e t)).
Proof.
  intros Sv B H. unfold pair_cs in H. ok_in H. destruct H as ((H1 & (V1 & _) & _) & (H2 & _) & (H3 & V3 & _) & _).
  rewrite (cont_var_ok _ _ _ _ Sv) in V1. rewrite (binary_var_ok _ _ B) in V3. rewrite !mw_energy in *. unfold between.
  splits; try tauto.
  - intros N. destruct V3 as [Z|Z]; [|exact Z]. exfalso. apply N. rewrite Z in *. lra.
  - destruct V3 as [Z|Z]; rewrite Z in *; [left; lra|right; splits; lra].
Qed.
Lemma pair_var_complete c f cc t e v w s (there : Prop) : cont v (Some 0) (Some (mw_to_mwh f (cg_max_mw cc))) -> is_binary_var w ->
  0 <= s (v_id v) -> 0 <= energy f (cg_max_mw cc) -> charger_switched f there cc (s (v_id w)) (s (v_id v)) -> (there -> 1 <= presence c e t) ->
  s (v_id v) <= energy f (cg_max_mw cc) -> 0 <= presence c e t ->
  all_ok s (pair_cs c f cc t e (FVar v) (FVar w)) /\ vars_ok s [v] /\ vars_ok s [w].
Proof.
  intros Sv B P1 P2 ((W1 & W2) & W3) TH P3 P4. unfold pair_cs. ok_goal. unfold between in *.
  rewrite (cont_var_ok _ _ _ _ Sv), (binary_var_ok _ _ B), !mw_energy. unfold bit in W1.
  splits; auto; destruct W1 as [Z|Z].
  - rewrite (W2 Z), Z. lra.
  - rewrite Z. lra.
  - rewrite (W2 Z), Z. lra.
  - destruct (W3 Z) as [W4 _]. rewrite Z. lra.
  - rewrite Z. lra.
  - destruct (W3 Z) as [_ W4]. rewrite Z. auto.
Qed.

Definition charge_ok (c : evs_cfg) (f : freq) (fl : flags) (cc : charger_cfg) (e t : nat) (x : Q) : Prop :=
  0 <= x /\ (x == 0 \/ (between (energy f (cg_min_mw cc)) x (energy f (cg_max_mw cc)) /\ can_charge fl c e t)).
Definition discharge_ok (c : evs_cfg) (f : freq) (fl : flags) (cc : charger_cfg) (e t : nat) (x : Q) : Prop :=
  if allow_evs_discharge fl
  then 0 <= x /\ (x == 0 \/ (between (energy f (cg_min_mw cc)) x (energy f (cg_max_mw cc)) /\ 1 <= presence c e t))
  else x == 0.
Definition bin_ok2 (x b : Q) : Prop := (b == 0 \/ b == 1) /\ (~ x == 0 -> b == 1).

Lemma event_presence c t e ce : event_at (ev_events c) t e = Ok ce -> presence c e t = ce.
Proof. apply event_at_eq. Qed.

Lemma charge_sound c f fl cc t e r s : charge_shape c t f fl e cc r ->
  all_ok s (pair_cs c f cc t e (eoi_charge r) (eoi_charge_bin r)) ->
  charge_ok c f fl cc e t (fv s (eoi_charge r)) /\ bin_ok2 (fv s (eoi_charge r)) (fv s (eoi_charge_bin r)).
Proof.
  intros [(x & b & -> & -> & Sx & Sb & L)|(-> & -> & L & ce & Ece & Nce)] H.
  - destruct (pair_var_sound _ _ _ _ _ _ _ _ Sx Sb H) as (A & B & C & D). cbn [fv]. unfold charge_ok, bin_ok2. splits; auto.
    destruct D as [D|[D1 D2]]; [now left|right]. split; auto. unfold can_charge.
    destruct (limit_charge_variables_to_valid_events fl); [|exact D2].
    destruct (L eq_refl) as (ce & Ece & Hce). rewrite (event_presence _ _ _ _ Ece). exact Hce.
  - cbn [fv]. change (inject_Z 0) with 0. unfold charge_ok, bin_ok2, between. splits; auto; try lra; try (left; reflexivity).
Qed.
Lemma charge_complete c f fl cc t e r s x w : charge_shape c t f fl e cc r -> 0 <= energy f (cg_max_mw cc) ->
  fset s (eoi_charge r) x -> fset s (eoi_charge_bin r) w -> charge_ok c f fl cc e t x -> charger_switched f (can_charge fl c e t) cc w x ->
  (limit_charge_variables_to_valid_events fl = false -> 0 <= presence c e t) ->
  fv s (eoi_charge r) == x /\ fv s (eoi_charge_bin r) == w /\
  all_ok s (pair_cs c f cc t e (eoi_charge r) (eoi_charge_bin r)) /\ vars_ok s (fvars (eoi_charge r)) /\ vars_ok s (fvars (eoi_charge_bin r)).
Proof.
  intros [(v & b & -> & -> & Sx & Sb & L)|(-> & -> & L & ce & Ece & Nce)] HM E1 E2 (P1 & P2) WS P3; cbn [fset fv fvars] in *.
  - assert (0 <= presence c e t) as P4.
    { destruct (limit_charge_variables_to_valid_events fl); [|auto]. destruct (L eq_refl) as (ce & Ece & Hce).
      rewrite (event_presence _ _ _ _ Ece), Hce. lra. }
    assert (x <= energy f (cg_max_mw cc)) as P5. { unfold between in P2. destruct P2 as [P2|[P2 _]]; [rewrite P2|]; lra. }
    assert (can_charge fl c e t -> 1 <= presence c e t) as TH.
    { unfold can_charge. destruct (limit_charge_variables_to_valid_events fl); [intros P; rewrite P; lra|auto]. }
    destruct (pair_var_complete c f cc t e v b s (can_charge fl c e t) Sx Sb) as (A1 & A2 & A3); rewrite ?E1, ?E2; auto; try reflexivity.
    splits; auto; reflexivity.
  - assert (~ can_charge fl c e t) as NC. { unfold can_charge. rewrite L, (event_presence _ _ _ _ Ece). exact Nce. }
    assert (x == 0) as Z by tauto. destruct WS as (([W|W] & _) & W3); [|exfalso; apply NC; now apply W3].
    change (inject_Z 0) with 0. splits; try constructor; rewrite ?Z, ?W; reflexivity.
Qed.
Lemma discharge_sound c f fl cc t e r s : discharge_shape f (allow_evs_discharge fl) cc r ->
  all_ok s (if allow_evs_discharge fl then pair_cs c f cc t e (eoi_discharge r) (eoi_discharge_bin r) else []) ->
  discharge_ok c f fl cc e t (fv s (eoi_discharge r)) /\ bin_ok2 (fv s (eoi_discharge r)) (fv s (eoi_discharge_bin r)).
Proof.
  unfold discharge_shape, discharge_ok. destruct (allow_evs_discharge fl).
  - intros (x & b & -> & -> & Sx & Sb) H. destruct (pair_var_sound _ _ _ _ _ _ _ _ Sx Sb H) as (A & B & C & D). cbn [fv]. unfold bin_ok2. splits; auto.
  - intros (-> & ->) _. cbn [fv]. change (inject_Z 0) with 0. unfold bin_ok2. splits; try reflexivity; try (left; reflexivity). intros N. exfalso. apply N. reflexivity.
Qed.
Lemma discharge_complete c f fl cc t e r s x w : discharge_shape f (allow_evs_discharge fl) cc r -> 0 <= energy f (cg_max_mw cc) ->
  fset s (eoi_discharge r) x -> fset s (eoi_discharge_bin r) w -> discharge_ok c f fl cc e t x ->
  (if allow_evs_discharge fl then charger_switched f (1 <= presence c e t) cc w x else w == 0) ->
  (allow_evs_discharge fl = true -> 0 <= presence c e t) ->
  fv s (eoi_discharge r) == x /\ fv s (eoi_discharge_bin r) == w /\
  all_ok s (if allow_evs_discharge fl then pair_cs c f cc t e (eoi_discharge r) (eoi_discharge_bin r) else []) /\
  vars_ok s (fvars (eoi_discharge r)) /\ vars_ok s (fvars (eoi_discharge_bin r)).
Proof.
  unfold discharge_shape, discharge_ok. destruct (allow_evs_discharge fl).
  - intros (v & b & -> & -> & Sx & Sb) HM E1 E2 (P1 & P2) WS P3; cbn [fset fv fvars] in *.
    assert (x <= energy f (cg_max_mw cc)) as P5. { unfold between in P2. destruct P2 as [P2|[P2 _]]; [rewrite P2|]; lra. }
    destruct (pair_var_complete c f cc t e v b s (1 <= presence c e t) Sx Sb) as (A1 & A2 & A3); rewrite ?E1, ?E2; auto; try reflexivity.
    splits; auto; reflexivity.
  - intros (-> & ->) _ _ _ Z W _. cbn [fv fvars]. change (inject_Z 0) with 0.
    splits; try constructor; rewrite ?Z, ?W; reflexivity.
Qed.

(** ** One interval *)
Lemma vars_ok_flat_map {A} s (f : A -> list lpvar) l : vars_ok s (flat_map f l) <-> forall x, In x l -> vars_ok s (f x).
Proof.
  unfold vars_ok. induction l; simpl; [split; [intros _ x []|constructor]|]. rewrite Forall_app, IHl. split.
  - intros [A1 A2] x [->|I]; auto.
  - auto.
Qed.
Lemma flat_map_map {A B C} (f : B -> list C) (g : A -> B) l : flat_map f (map g l) = flat_map (fun x => f (g x)) l.
Proof. induction l; simpl; congruence. Qed.
Lemma Qsum_seq_first (g : nat -> Q) m : (0 < m)%nat -> (forall k, (0 < k)%nat -> g k == 0) -> Qsum (map g (seq 0 m)) == g 0%nat.
Proof.
  intros H Z. destruct m; [lia|]. cbn [seq map Qsum fold_right]. fold (Qsum (map g (seq 1 m))).
  rewrite (Qsum_map_zero g); [lra|]. intros k I. apply in_seq in I. apply Z. lia.
Qed.
Lemma eval_sum_fv s (g : nat -> fval) l : eval s (esum (map (fun k => fexpr (g k)) l)) == Qsum (map (fun k => fv s (g k)) l).
Proof. rewrite eval_esum, map_map. apply Qsum_map_ext. intros k _. apply eval_fexpr. Qed.
Lemma eval_sum_fv2 s (g h : nat -> fval) l : eval s (esum (map (fun k => fexpr (g k)) l ++ map (fun k => fexpr (h k)) l))
  == Qsum (map (fun k => fv s (g k)) l ++ map (fun k => fv s (h k)) l).
Proof. rewrite eval_esum, map_app, !map_map, !Qsum_app. rewrite (Qsum_map_ext _ (fun k => fv s (g k))), (Qsum_map_ext (fun x => eval s (fexpr (h x))) (fun k => fv s (h k))); [reflexivity| |]; intros; apply eval_fexpr. Qed.
Lemma vars_sum_fv s (g : nat -> fval) l : vars_ok s (evars (esum (map (fun k => fexpr (g k)) l))) <-> forall k, In k l -> vars_ok s (fvars (g k)).
Proof. rewrite evars_esum, flat_map_map, vars_ok_flat_map. split; intros H k I; specialize (H k I); rewrite evars_fexpr in *; auto. Qed.
Lemma vars_sum_fv2 s (g h : nat -> fval) l : vars_ok s (evars (esum (map (fun k => fexpr (g k)) l ++ map (fun k => fexpr (h k)) l)))
  <-> forall k, In k l -> vars_ok s (fvars (g k)) /\ vars_ok s (fvars (h k)).
Proof.
  rewrite evars_esum, flat_map_app, vars_ok_app, !flat_map_map, !vars_ok_flat_map. split.
  - intros [A1 A2] k I. specialize (A1 k I). specialize (A2 k I). rewrite evars_fexpr in *. auto.
  - intros H. split; intros k I; rewrite evars_fexpr; now apply H.
Qed.

Definition evs_cs (a sp : evs_array) (c : evs_cfg) (f : freq) (fl : flags) (t : nat) : list constr :=
  (minmax_cs a c f (ev_chargers c) t (allow_evs_discharge fl) ++ minmax_cs sp c f (ev_spill_chargers c) t false
   ++ single_cs a c ++ balance_cs a sp)%list.

Lemma minmax_iff a c f chargers t allow s : all_ok s (minmax_cs a c f chargers t allow) <->
  forall e ec k cc, nth_error (ev_event_cfgs c) e = Some ec -> nth_error chargers k = Some cc ->
    all_ok s (pair_cs c f cc t e (ea_charge a e k) (ea_charge_bin a e k)) /\
    all_ok s (if allow then pair_cs c f cc t e (ea_discharge a e k) (ea_discharge_bin a e k) else []).
Proof.
  unfold minmax_cs. rewrite all_ok_flat_map. split.
  - intros H e ec k cc He Hk. apply enumerate_in in He, Hk. specialize (H _ He). rewrite all_ok_flat_map in H. specialize (H _ Hk).
    cbn [fst snd] in H. rewrite all_ok_app in H. destruct H as [H1 H2]. split; auto; destruct allow; auto.
  - intros H (e & ec) He. apply enumerate_in in He. rewrite all_ok_flat_map. intros (k & cc) Hk. apply enumerate_in in Hk. cbn [fst snd].
    rewrite all_ok_app. apply (H e ec k cc He Hk).
Qed.
Lemma single_iff a c s : ea_cfg a = c -> all_ok s (single_cs a c) <->
  (forall e, (e < n_events c)%nat ->
     Qsum (map (fun k => fv s (ea_charge_bin a e k)) (seq 0 (n_chargers c)) ++ map (fun k => fv s (ea_discharge_bin a e k)) (seq 0 (n_chargers c))) <= 1 /\
     forall k, (k < n_chargers c)%nat -> vars_ok s (fvars (ea_charge_bin a e k)) /\ vars_ok s (fvars (ea_discharge_bin a e k))) /\
  (forall k, (k < n_chargers c)%nat ->
     Qsum (map (fun e => fv s (ea_charge_bin a e k)) (seq 0 (n_events c)) ++ map (fun e => fv s (ea_discharge_bin a e k)) (seq 0 (n_events c))) <= 1 /\
     forall e, (e < n_events c)%nat -> vars_ok s (fvars (ea_charge_bin a e k)) /\ vars_ok s (fvars (ea_discharge_bin a e k))).
Proof.
  intros Ec. unfold single_cs. rewrite Ec, all_ok_app, !all_ok_flat_map. split.
  - intros [H1 H2]. split.
    + intros e He. destruct (nth_error_lt _ _ He) as (ec & Ee). apply enumerate_in in Ee. specialize (H1 _ Ee). cbn [fst] in H1.
      rewrite all_ok_cons in H1. destruct H1 as [H1 _]. rewrite cle_ok, eval_sum_fv2, vars_ok_app, vars_sum_fv2, eval_econst in H1.
      destruct H1 as (H1 & V & _). split; auto. intros k Hk. apply V. apply in_seq. lia.
    + intros e He. destruct (nth_error_lt _ _ He) as (ec & Ee). apply enumerate_in in Ee. specialize (H2 _ Ee). cbn [fst] in H2.
      rewrite all_ok_cons in H2. destruct H2 as [H2 _].
      rewrite cle_ok, (eval_sum_fv2 s (fun e0 => ea_charge_bin a e0 e) (fun e0 => ea_discharge_bin a e0 e)), vars_ok_app, (vars_sum_fv2 s (fun e0 => ea_charge_bin a e0 e) (fun e0 => ea_discharge_bin a e0 e)), eval_econst in H2.
      destruct H2 as (H2 & V & _). split; auto. intros k Hk. apply V. apply in_seq. lia.
  - intros [H1 H2]. split.
    + intros (e & ec) Ee. apply enumerate_in in Ee. cbn [fst]. rewrite all_ok_cons, all_ok_nil. split; auto.
      assert (e < n_events c)%nat as He by (apply nth_error_Some; congruence). destruct (H1 e He) as [A V].
      rewrite cle_ok, eval_sum_fv2, vars_ok_app, vars_sum_fv2, eval_econst, evars_econst, vars_ok_nil. splits; auto.
      intros k I. apply in_seq in I. apply V. lia.
    + intros (e & ec) Ee. apply enumerate_in in Ee. cbn [fst]. rewrite all_ok_cons, all_ok_nil. split; auto.
      assert (e < n_chargers c)%nat as He by (apply nth_error_Some; congruence). destruct (H2 e He) as [A V].
      rewrite cle_ok, (eval_sum_fv2 s (fun e0 => ea_charge_bin a e0 e) (fun e0 => ea_discharge_bin a e0 e)), vars_ok_app, (vars_sum_fv2 s (fun e0 => ea_charge_bin a e0 e) (fun e0 => ea_discharge_bin a e0 e)), eval_econst, evars_econst, vars_ok_nil. splits; auto.
      intros k I. apply in_seq in I. apply V. lia.
Qed.
Lemma losses_iff a c e ec s : ea_cfg a = c -> all_ok s (losses_cs a e ec) <->
  forall k, (k < n_chargers c)%nat -> fv s (ea_charge a e k) * (1 - ce_efficiency_pct ec) == fv s (ea_loss a e k) /\
    (1 - ce_efficiency_pct ec == 0 \/ vars_ok s (fvars (ea_charge a e k))) /\ vars_ok s (fvars (ea_loss a e k)).
Proof.
  intros Ec. unfold losses_cs. rewrite Ec, all_ok_flat_map.
  assert (forall k, all_ok s [ceq (escale (esum [fexpr (ea_charge a e k)]) (1 - ce_efficiency_pct ec)) (esum [fexpr (ea_loss a e k)])] <->
    fv s (ea_charge a e k) * (1 - ce_efficiency_pct ec) == fv s (ea_loss a e k) /\
    (1 - ce_efficiency_pct ec == 0 \/ vars_ok s (fvars (ea_charge a e k))) /\ vars_ok s (fvars (ea_loss a e k))) as X.
  { intros k. rewrite all_ok_cons, all_ok_nil, ceq_ok, eval_escale, !eval_esum, vars_ok_app, evars_escale, !evars_esum. cbn [map Qsum fold_right flat_map].
    rewrite !eval_fexpr, !app_nil_r, !evars_fexpr.
    destruct (Qeq_bool (1 - ce_efficiency_pct ec) 0) eqn:E.
    - rewrite vars_ok_nil. apply Qeq_bool_iff in E. assert (forall x y : Q, (x + 0) * (1 - ce_efficiency_pct ec) == y + 0 <-> x * (1 - ce_efficiency_pct ec) == y) as R by (intros; split; nra).
      rewrite R. tauto.
    - apply Qeq_bool_neq in E. assert (forall x y : Q, (x + 0) * (1 - ce_efficiency_pct ec) == y + 0 <-> x * (1 - ce_efficiency_pct ec) == y) as R by (intros; split; nra).
      rewrite R. tauto. }
  split.
  - intros H k Hk. destruct (nth_error_lt _ _ Hk) as (cc & Ek). apply enumerate_in in Ek. specialize (H _ Ek). cbn [fst] in H. now apply X.
  - intros H (k & cc) Ek. apply enumerate_in in Ek. cbn [fst]. apply X. apply H. apply nth_error_Some. unfold n_chargers. congruence.
Qed.
Lemma soc_iff a sp c e s : ea_cfg a = c -> ea_cfg sp = c -> constr_ok s (soc_c a sp e) <->
  (let ks := seq 0 (n_chargers c) in
   fv s (ea_soc0 a e) + Qsum (map (fun k => fv s (ea_charge a e k)) ks) + Qsum (map (fun k => fv s (ea_charge sp e k)) ks)
    - Qsum (map (fun k => fv s (ea_discharge a e k)) ks) - Qsum (map (fun k => fv s (ea_discharge sp e k)) ks)
    - Qsum (map (fun k => fv s (ea_loss a e k)) ks) == fv s (ea_soc1 a e)) /\
  vars_ok s (fvars (ea_soc0 a e)) /\ vars_ok s (fvars (ea_soc1 a e)) /\
  (forall k, (k < n_chargers c)%nat -> vars_ok s (fvars (ea_charge a e k)) /\ vars_ok s (fvars (ea_charge sp e k)) /\
     vars_ok s (fvars (ea_discharge a e k)) /\ vars_ok s (fvars (ea_discharge sp e k)) /\ vars_ok s (fvars (ea_loss a e k))).
Proof.
  intros Ea Es. unfold soc_c, sum_row. rewrite Ea, Es. cbv zeta. rewrite ceq_ok, vars_ok_app.
  rewrite !eval_esub, !eval_eadd, !eval_fexpr, !eval_sum_fv, !evars_esub, !evars_eadd, !vars_ok_app, !vars_sum_fv, !evars_fexpr.
  split.
  - intros (A & ((((((V1 & V2) & V3) & V4) & V5) & V6) & V7)). splits; auto. intros k Hk.
    assert (In k (seq 0 (n_chargers c))) as I by (apply in_seq; lia). splits; auto.
  - intros (A & V1 & V2 & V3). splits; auto; intros k I; apply in_seq in I; apply V3; lia.
Qed.
Lemma balance_iff a sp c s : ea_cfg a = c -> ea_cfg sp = c -> all_ok s (balance_cs a sp) <->
  forall e ec, nth_error (ev_event_cfgs c) e = Some ec ->
    constr_ok s (soc_c a sp e) /\ all_ok s (losses_cs a e ec) /\ all_ok s (losses_cs sp e ec).
Proof.
  intros Ea Es. unfold balance_cs. rewrite Ea, all_ok_flat_map. split.
  - intros H e ec Ee. apply enumerate_in in Ee. specialize (H _ Ee). cbn [fst snd] in H. now rewrite all_ok_cons, all_ok_app in H.
  - intros H (e & ec) Ee. apply enumerate_in in Ee. cbn [fst snd]. rewrite all_ok_cons, all_ok_app. auto.
Qed.

Lemma Forall2_map_lr {A B C} (R : B -> C -> Prop) (f : A -> B) (g : A -> C) l : (forall x, In x l -> R (f x) (g x)) -> Forall2 R (map f l) (map g l).
Proof. induction l; simpl; intros H; constructor; auto. Qed.
Lemma nth_error_lt2 {A} (l : list A) k x : nth_error l k = Some x -> (k < List.length l)%nat.
Proof. intros H. apply nth_error_Some. congruence. Qed.

Lemma evs_vals c t f fl xs S0 S1 E Sp d s : evs_shape c t f fl xs S0 S1 E Sp -> Forall (oi_val d t s) xs ->
  (forall e k, (e < n_events c)%nat -> (k < n_chargers c)%nat ->
     fv s (eoi_charge (E e k)) = d_ev_charge d (ev_name c) e k t /\ fv s (eoi_discharge (E e k)) = d_ev_discharge d (ev_name c) e k t /\
     fv s (eoi_loss (E e k)) = d_ev_loss d (ev_name c) e k t /\
     s (v_id (S0 e)) = d_ev_soc0 d (ev_name c) e t /\ s (v_id (S1 e)) = d_ev_soc1 d (ev_name c) e t) /\
  (forall e, (e < n_events c)%nat -> (0 < List.length (ev_spill_chargers c))%nat ->
     fv s (eoi_charge (Sp e 0%nat)) = d_spill_charge d (ev_name c) e t /\ fv s (eoi_loss (Sp e 0%nat)) = d_spill_loss d (ev_name c) e t).
Proof.
  intros (-> & _ & SE & SSp) H. rewrite Forall_app in H. destruct H as [H1 H2]. rewrite Forall_forall in H1, H2. split.
  - intros e k He Hk. destruct (nth_error_lt _ _ He) as (ec & Ee). destruct (nth_error_lt _ _ Hk) as (cc & Ek).
    specialize (SE e ec k cc Ee Ek). destruct SE as (Q1 & _ & Q2 & _ & Q3 & _ & _ & _ & _ & Q4 & Q5).
    assert (In (OIEv (E e k)) (map OIEv (grid E (n_events c) (n_chargers c)))) as I by (apply in_map, in_grid; eauto).
    specialize (H1 _ I). cbn [oi_val] in H1. rewrite Q1, Q2, Q3, Q4, Q5 in H1. cbn [fv] in H1. tauto.
  - intros e He Hk. destruct (nth_error_lt _ _ He) as (ec & Ee). destruct (nth_error_lt _ _ Hk) as (cc & Ek).
    specialize (SSp e ec 0%nat cc Ee Ek). destruct SSp as (Q1 & _ & Q2 & _ & Q3 & _).
    assert (In (OIEvSpill (Sp e 0%nat)) (map OIEvSpill (grid Sp (n_events c) (List.length (ev_spill_chargers c))))) as I by (apply in_map, in_grid; exists e, 0%nat; auto).
    specialize (H2 _ I). cbn [oi_val] in H2. rewrite Q1, Q2 in H2. tauto.
Qed.

Lemma evs_sound c t f fl xs S0 S1 E Sp a sp d s : evs_shape c t f fl xs S0 S1 E Sp -> array_main c S0 S1 E a -> array_spill c Sp sp ->
  Forall (oi_val d t s) xs -> all_ok s (evs_cs a sp c f fl t) -> evs_at c f fl d t.
Proof.
  intros SH (Ca & ne & nc & Pa & So) (Cs & L1 & _ & _ & Ps & Pz) FV H.
  destruct (evs_vals _ _ _ _ _ _ _ _ _ _ _ SH FV) as [VM VS]. destruct SH as (_ & SS & SE & SSp).
  unfold evs_cs in H. rewrite !all_ok_app, !minmax_iff, (single_iff _ _ _ Ca), (balance_iff _ _ _ _ Ca Cs) in H.
  destruct H as (HM & HS & (HE & HC) & HB).
  (* facts about each pair *)
  assert (forall e ec k cc, nth_error (ev_event_cfgs c) e = Some ec -> nth_error (ev_chargers c) k = Some cc ->
     charge_ok c f fl cc e t (d_ev_charge d (ev_name c) e k t) /\ bin_ok2 (d_ev_charge d (ev_name c) e k t) (fv s (ea_charge_bin a e k)) /\
     discharge_ok c f fl cc e t (d_ev_discharge d (ev_name c) e k t) /\ bin_ok2 (d_ev_discharge d (ev_name c) e k t) (fv s (ea_discharge_bin a e k))) as PP.
  { intros e ec k cc Ee Ek. pose proof (nth_error_lt2 _ _ _ Ee) as He. pose proof (nth_error_lt2 _ _ _ Ek) as Hk.
    destruct (HM _ _ _ _ Ee Ek) as [M1 M2]. destruct (Pa e k He Hk) as (Q1 & Q2 & Q3 & Q4 & Q5). rewrite Q1, Q2 in M1. rewrite Q3, Q4 in M2.
    destruct (SE _ _ _ _ Ee Ek) as (_ & _ & _ & _ & _ & _ & CS & DS & _).
    destruct (charge_sound _ _ _ _ _ _ _ _ CS M1) as [A1 A2]. destruct (discharge_sound c f fl cc t e _ _ DS M2) as [B1 B2].
    destruct (VM e k He Hk) as (W1 & W2 & _). rewrite W1 in A1, A2. rewrite W2 in B1, B2. rewrite Q2, Q4. auto. }
  unfold evs_at. cbv zeta. splits.
  - intros e ec k cc Ee Ek. pose proof (nth_error_lt2 _ _ _ Ee) as He. pose proof (nth_error_lt2 _ _ _ Ek) as Hk.
    destruct (PP _ _ _ _ Ee Ek) as ((A1 & A2) & _ & A3 & _). destruct (Pa e k He Hk) as (Q1 & Q2 & Q3 & Q4 & Q5). destruct (VM e k He Hk) as (W1 & W2 & W3 & _).
    destruct (HB _ _ Ee) as (_ & HL & _). rewrite (losses_iff _ _ _ _ _ Ca) in HL. destruct (HL k Hk) as (L & _ & LV). rewrite Q1, Q5, W1, W3 in L.
    destruct (SE _ _ _ _ Ee Ek) as (_ & _ & _ & _ & _ & _ & _ & _ & (v & Ev & Cv) & _). rewrite Q5, Ev in LV. cbn [fvars] in LV. rewrite vars_ok_1, (cont_var_ok _ _ _ _ Cv) in LV.
    rewrite Ev in W3. cbn [fv] in W3. rewrite W3 in LV. splits; auto; [symmetry; exact L|tauto].
  - intros e ec cc Ee Ek. pose proof (nth_error_lt2 _ _ _ Ee) as He. pose proof (nth_error_lt2 _ _ _ Ek) as Hk.
    destruct (HS _ _ _ _ Ee Ek) as [M1 _]. destruct (Ps e He) as (Q1 & Q2 & _ & _ & Q5). rewrite Q1, Q2 in M1.
    destruct (SSp _ _ _ _ Ee Ek) as (_ & _ & _ & _ & _ & _ & CS & _ & (v & Ev & Cv) & _).
    destruct (charge_sound _ _ _ _ _ _ _ _ CS M1) as [(A1 & A2) _]. destruct (VS e He Hk) as (W1 & W3). rewrite W1 in A1, A2.
    destruct (HB _ _ Ee) as (_ & _ & HL). rewrite (losses_iff _ _ _ _ _ Cs) in HL. destruct (HL 0%nat nc) as (L & _ & LV). rewrite Q1, Q5, W1, W3 in L.
    rewrite Q5, Ev in LV. cbn [fvars] in LV. rewrite vars_ok_1, (cont_var_ok _ _ _ _ Cv) in LV. rewrite Ev in W3. cbn [fv] in W3. rewrite W3 in LV.
    splits; auto; [symmetry; exact L|tauto].
  - intros e I. apply in_seq in I. assert (e < n_events c)%nat as He by (unfold n_events in *; lia). destruct (nth_error_lt _ _ He) as (ec & Ee).
    destruct (HE e He) as [HQ _]. eapply at_most_one_of_bins; [|exact HQ].
    apply Forall2_app; apply Forall2_map_lr; intros k J; apply in_seq in J; assert (k < n_chargers c)%nat as Hk by (unfold n_chargers in *; lia); destruct (nth_error_lt _ _ Hk) as (cc & Ek);
      destruct (PP _ _ _ _ Ee Ek) as (_ & A & _ & B); auto.
  - intros k I. apply in_seq in I. assert (k < n_chargers c)%nat as Hk by (unfold n_chargers in *; lia). destruct (nth_error_lt _ _ Hk) as (cc & Ek).
    destruct (HC k Hk) as [HQ _]. eapply at_most_one_of_bins; [|exact HQ].
    apply Forall2_app; apply Forall2_map_lr; intros e J; apply in_seq in J; assert (e < n_events c)%nat as He by (unfold n_events in *; lia); destruct (nth_error_lt _ _ He) as (ec & Ee);
      destruct (PP _ _ _ _ Ee Ek) as (_ & A & _ & B); auto.
  - intros e ec Ee. pose proof (nth_error_lt2 _ _ _ Ee) as He. destruct (HB _ _ Ee) as (HQ & _). rewrite (soc_iff _ _ _ _ _ Ca Cs) in HQ. cbv zeta in HQ.
    destruct HQ as (HQ & V0 & V1 & _). destruct (So e He) as [Z0 Z1]. rewrite Z0 in V0. rewrite Z1 in V1. cbn [fvars] in V0, V1.
    destruct (SS _ _ Ee) as [C0 C1]. rewrite vars_ok_1, (cont_var_ok _ _ _ _ C0) in V0. rewrite vars_ok_1, (cont_var_ok _ _ _ _ C1) in V1.
    destruct (VM e 0%nat He nc) as (_ & _ & _ & W4 & W5). rewrite W4 in V0. rewrite W5 in V1. unfold between. splits; try tauto.
    rewrite Z0, Z1 in HQ. cbn [fv] in HQ. rewrite W4, W5 in HQ.
    rewrite (Qsum_map_ext (fun k => fv s (ea_charge a e k)) (fun k => d_ev_charge d (ev_name c) e k t)) in HQ
      by (intros k J; apply in_seq in J; assert (k < n_chargers c)%nat as Hk by lia; destruct (Pa e k He Hk) as (Q1 & _); rewrite Q1; destruct (VM e k He Hk) as (W & _); now rewrite W).
    rewrite (Qsum_map_ext (fun k => fv s (ea_discharge a e k)) (fun k => d_ev_discharge d (ev_name c) e k t)) in HQ
      by (intros k J; apply in_seq in J; assert (k < n_chargers c)%nat as Hk by lia; destruct (Pa e k He Hk) as (_ & _ & Q1 & _); rewrite Q1; destruct (VM e k He Hk) as (_ & W & _); now rewrite W).
    rewrite (Qsum_map_ext (fun k => fv s (ea_loss a e k)) (fun k => d_ev_loss d (ev_name c) e k t)) in HQ
      by (intros k J; apply in_seq in J; assert (k < n_chargers c)%nat as Hk by lia; destruct (Pa e k He Hk) as (_ & _ & _ & _ & Q1); rewrite Q1; destruct (VM e k He Hk) as (_ & _ & W & _); now rewrite W).
    rewrite (Qsum_seq_first (fun k => fv s (ea_charge sp e k)) (n_chargers c) nc) in HQ by (intros k Hk; destruct (Pz e k Hk) as (Q1 & _); rewrite Q1; reflexivity).
    rewrite (Qsum_map_zero (fun k => fv s (ea_discharge sp e k))) in HQ.
    2:{ intros k J. apply in_seq in J. destruct (Nat.eq_dec k 0) as [->|N].
        - destruct (Ps e He) as (_ & _ & Q1 & _). rewrite Q1. destruct (nth_error_lt (ev_spill_chargers c) 0) as (cc & Ek); [lia|].
          destruct (SSp _ _ _ _ Ee Ek) as (_ & _ & _ & _ & _ & _ & _ & (DS & _) & _). rewrite DS. reflexivity.
        - destruct (Pz e k) as (_ & _ & Q1 & _); [lia|]. rewrite Q1. reflexivity. }
    destruct (Ps e He) as (Q1 & _). rewrite Q1 in HQ. destruct (VS e He) as (W1 & _); [lia|]. rewrite W1 in HQ. unfold n_chargers in HQ. lra.
Qed.

Lemma evs_sets c t f fl xs S0 S1 E Sp d s : evs_shape c t f fl xs S0 S1 E Sp -> Forall (oi_set d t s) xs ->
  (forall e k, (e < n_events c)%nat -> (k < n_chargers c)%nat ->
     fset s (eoi_charge (E e k)) (d_ev_charge d (ev_name c) e k t) /\ fset s (eoi_charge_bin (E e k)) (w_ev_charge (st_w d) (ev_name c) e k t) /\
     fset s (eoi_discharge (E e k)) (d_ev_discharge d (ev_name c) e k t) /\ fset s (eoi_discharge_bin (E e k)) (w_ev_discharge (st_w d) (ev_name c) e k t) /\
     fset s (eoi_loss (E e k)) (d_ev_loss d (ev_name c) e k t) /\
     s (v_id (S0 e)) = d_ev_soc0 d (ev_name c) e t /\ s (v_id (S1 e)) = d_ev_soc1 d (ev_name c) e t) /\
  (forall e, (e < n_events c)%nat -> (0 < List.length (ev_spill_chargers c))%nat ->
     fset s (eoi_charge (Sp e 0%nat)) (d_spill_charge d (ev_name c) e t) /\ fset s (eoi_charge_bin (Sp e 0%nat)) (w_spill_charge (st_w d) (ev_name c) e t) /\
     fset s (eoi_loss (Sp e 0%nat)) (d_spill_loss d (ev_name c) e t)).
Proof.
  intros (-> & _ & SE & SSp) H. rewrite Forall_app in H. destruct H as [H1 H2]. rewrite Forall_forall in H1, H2. split.
  - intros e k He Hk. destruct (nth_error_lt _ _ He) as (ec & Ee). destruct (nth_error_lt _ _ Hk) as (cc & Ek).
    specialize (SE e ec k cc Ee Ek). destruct SE as (Q1 & _ & Q2 & _ & Q3 & _ & _ & _ & _ & Q4 & Q5).
    assert (In (OIEv (E e k)) (map OIEv (grid E (n_events c) (n_chargers c)))) as I by (apply in_map, in_grid; eauto).
    specialize (H1 _ I). cbn [oi_set] in H1. rewrite Q1, Q2, Q3, Q4, Q5 in H1. cbn [fset] in H1. tauto.
  - intros e He Hk. destruct (nth_error_lt _ _ He) as (ec & Ee). destruct (nth_error_lt _ _ Hk) as (cc & Ek).
    specialize (SSp e ec 0%nat cc Ee Ek). destruct SSp as (Q1 & _ & Q2 & _ & Q3 & _).
    assert (In (OIEvSpill (Sp e 0%nat)) (map OIEvSpill (grid Sp (n_events c) (List.length (ev_spill_chargers c))))) as I by (apply in_map, in_grid; exists e, 0%nat; auto).
    specialize (H2 _ I). cbn [oi_set] in H2. rewrite Q1, Q2 in H2. tauto.
Qed.

(** the value of every quantity once the variables are set *)
Lemma evs_pairs_complete c t f fl xs S0 S1 E Sp d s : evs_shape c t f fl xs S0 S1 E Sp -> Forall (oi_set d t s) xs -> evs_sane c f -> evs_at c f fl d t -> evs_switched c f fl d (st_w d) t ->
  (forall e ec k cc, nth_error (ev_event_cfgs c) e = Some ec -> nth_error (ev_chargers c) k = Some cc ->
     (fv s (eoi_charge (E e k)) == d_ev_charge d (ev_name c) e k t /\ fv s (eoi_charge_bin (E e k)) == w_ev_charge (st_w d) (ev_name c) e k t /\
      all_ok s (pair_cs c f cc t e (eoi_charge (E e k)) (eoi_charge_bin (E e k))) /\ vars_ok s (fvars (eoi_charge (E e k))) /\ vars_ok s (fvars (eoi_charge_bin (E e k)))) /\
     (fv s (eoi_discharge (E e k)) == d_ev_discharge d (ev_name c) e k t /\ fv s (eoi_discharge_bin (E e k)) == w_ev_discharge (st_w d) (ev_name c) e k t /\
      all_ok s (if allow_evs_discharge fl then pair_cs c f cc t e (eoi_discharge (E e k)) (eoi_discharge_bin (E e k)) else []) /\
      vars_ok s (fvars (eoi_discharge (E e k))) /\ vars_ok s (fvars (eoi_discharge_bin (E e k)))) /\
     (fv s (eoi_loss (E e k)) == d_ev_loss d (ev_name c) e k t /\ vars_ok s (fvars (eoi_loss (E e k))))) /\
  (forall e ec cc, nth_error (ev_event_cfgs c) e = Some ec -> nth_error (ev_spill_chargers c) 0 = Some cc ->
     (fv s (eoi_charge (Sp e 0%nat)) == d_spill_charge d (ev_name c) e t /\ fv s (eoi_charge_bin (Sp e 0%nat)) == w_spill_charge (st_w d) (ev_name c) e t /\
      all_ok s (pair_cs c f cc t e (eoi_charge (Sp e 0%nat)) (eoi_charge_bin (Sp e 0%nat))) /\ vars_ok s (fvars (eoi_charge (Sp e 0%nat))) /\ vars_ok s (fvars (eoi_charge_bin (Sp e 0%nat)))) /\
     (fv s (eoi_loss (Sp e 0%nat)) == d_spill_loss d (ev_name c) e t /\ vars_ok s (fvars (eoi_loss (Sp e 0%nat))))).
Proof.
  intros SH FS (SM & SP) PH (WM & WS & _). destruct (evs_sets _ _ _ _ _ _ _ _ _ _ _ SH FS) as [TM TS]. destruct SH as (_ & SS & SE & SSp).
  destruct PH as (PM & PS & _). split.
  - intros e ec k cc Ee Ek. pose proof (nth_error_lt2 _ _ _ Ee) as He. pose proof (nth_error_lt2 _ _ _ Ek) as Hk.
    destruct (TM e k He Hk) as (T1 & T2 & T3 & T4 & T5 & _). destruct (PM _ _ _ _ Ee Ek) as (P1 & P2 & P3 & P4 & P5).
    destruct (SE _ _ _ _ Ee Ek) as (_ & _ & _ & _ & _ & _ & CS & DS & (v & Ev & Cv) & _).
    assert (0 <= energy f (cg_max_mw cc)) as M by (apply SM; left; eapply nth_error_In; eauto).
    destruct (WM _ _ _ _ Ee Ek) as [WC WD].
    split; [exact (charge_complete c f fl cc t e _ s _ _ CS M T1 T2 (conj P1 P2) WC (fun _ => SP e t))|].
    split; [exact (discharge_complete c f fl cc t e _ s _ _ DS M T3 T4 P3 WD (fun _ => SP e t))|]. split.
    + rewrite Ev in *. cbn [fset fv] in *. now rewrite T5.
    + rewrite Ev in *. cbn [fset fvars] in *. rewrite vars_ok_1, (cont_var_ok _ _ _ _ Cv), T5. tauto.
  - intros e ec cc Ee Ek. pose proof (nth_error_lt2 _ _ _ Ee) as He. pose proof (nth_error_lt2 _ _ _ Ek) as Hk.
    destruct (TS e He Hk) as (T1 & T2 & T5). destruct (PS _ _ _ Ee Ek) as (P1 & P2 & P4 & P5).
    destruct (SSp _ _ _ _ Ee Ek) as (_ & _ & _ & _ & _ & _ & CS & _ & (v & Ev & Cv) & _).
    assert (0 <= energy f (cg_max_mw cc)) as M by (apply SM; right; eapply nth_error_In; eauto).
    split; [exact (charge_complete c f fl cc t e _ s _ _ CS M T1 T2 (conj P1 P2) (WS _ _ _ Ee Ek) (fun _ => SP e t))|]. split.
    + rewrite Ev in *. cbn [fset fv] in *. now rewrite T5.
    + rewrite Ev in *. cbn [fset fvars] in *. rewrite vars_ok_1, (cont_var_ok _ _ _ _ Cv), T5. tauto.
Qed.

Lemma evs_complete c t f fl xs S0 S1 E Sp a sp d s : evs_shape c t f fl xs S0 S1 E Sp -> array_main c S0 S1 E a -> array_spill c Sp sp ->
  Forall (oi_set d t s) xs -> evs_sane c f -> evs_at c f fl d t -> evs_switched c f fl d (st_w d) t -> all_ok s (evs_cs a sp c f fl t).
Proof.
  intros SH (Ca & ne & nc & Pa & So) (Cs & L1 & _ & _ & Ps & Pz) FS SN PH WW.
  destruct (evs_pairs_complete _ _ _ _ _ _ _ _ _ _ _ SH FS SN PH WW) as [VM VS]. destruct WW as (_ & _ & WE & WC). destruct (evs_sets _ _ _ _ _ _ _ _ _ _ _ SH FS) as [TM _].
  destruct SH as (_ & SS & SE & SSp). destruct PH as (PM & PS & PE & PC & PB).
  destruct (nth_error_lt (ev_spill_chargers c) 0) as (sc & Esc); [lia|].
  unfold evs_cs. rewrite !all_ok_app, !minmax_iff, (single_iff _ _ _ Ca), (balance_iff _ _ _ _ Ca Cs).
  assert (forall e k, (e < n_events c)%nat -> (k < n_chargers c)%nat -> vars_ok s (fvars (ea_charge_bin a e k)) /\ vars_ok s (fvars (ea_discharge_bin a e k)) /\
     fv s (ea_charge_bin a e k) == w_ev_charge (st_w d) (ev_name c) e k t /\ fv s (ea_discharge_bin a e k) == w_ev_discharge (st_w d) (ev_name c) e k t) as HB.
  { intros e k He Hk. destruct (nth_error_lt _ _ He) as (ec & Ee). destruct (nth_error_lt _ _ Hk) as (cc & Ek).
    destruct (VM _ _ _ _ Ee Ek) as (A1 & A2 & _). destruct (Pa e k He Hk) as (Q1 & Q2 & Q3 & Q4 & Q5). rewrite Q2, Q4. tauto. }
  splits.
  - intros e ec k cc Ee Ek. pose proof (nth_error_lt2 _ _ _ Ee) as He. pose proof (nth_error_lt2 _ _ _ Ek) as Hk.
    destruct (VM _ _ _ _ Ee Ek) as (A1 & A2 & _). destruct (Pa e k He Hk) as (Q1 & Q2 & Q3 & Q4 & Q5). rewrite Q1, Q2, Q3, Q4. tauto.
  - intros e ec k cc Ee Ek. pose proof (nth_error_lt2 _ _ _ Ee) as He. pose proof (nth_error_lt2 _ _ _ Ek) as Hk.
    assert (k = 0)%nat as -> by lia. destruct (VS _ _ _ Ee Ek) as (A1 & _). destruct (Ps e He) as (Q1 & Q2 & _). rewrite Q1, Q2. split; [tauto|constructor].
  - intros e He. split.
    + pose proof (WE e ltac:(apply in_seq; unfold n_events in He; lia)) as X. rewrite Qsum_app in X. rewrite Qsum_app.
      rewrite (Qsum_map_ext (fun k => fv s (ea_charge_bin a e k)) (fun k => w_ev_charge (st_w d) (ev_name c) e k t)), (Qsum_map_ext (fun k => fv s (ea_discharge_bin a e k)) (fun k => w_ev_discharge (st_w d) (ev_name c) e k t)); [exact X| |];
        intros k J; apply in_seq in J; apply HB; auto; lia.
    + intros k Hk. destruct (HB e k He Hk) as (A & B & _). auto.
  - intros k Hk. split.
    + pose proof (WC k ltac:(apply in_seq; unfold n_chargers in Hk; lia)) as X. rewrite Qsum_app in X. rewrite Qsum_app.
      rewrite (Qsum_map_ext (fun e => fv s (ea_charge_bin a e k)) (fun e => w_ev_charge (st_w d) (ev_name c) e k t)), (Qsum_map_ext (fun e => fv s (ea_discharge_bin a e k)) (fun e => w_ev_discharge (st_w d) (ev_name c) e k t)); [exact X| |];
        intros e J; apply in_seq in J; apply HB; auto; lia.
    + intros e He. destruct (HB e k He Hk) as (A & B & _). auto.
  - intros e ec Ee. pose proof (nth_error_lt2 _ _ _ Ee) as He. destruct (PB _ _ Ee) as (B0 & B1 & BE). destruct (So e He) as [Z0 Z1]. destruct (SS _ _ Ee) as [C0 C1].
    destruct (VS _ _ _ Ee Esc) as ((W1 & W2 & W3 & W4 & W5) & W6 & W7). destruct (Ps e He) as (R1 & R2 & R3 & R4 & R5).
    destruct (SSp _ _ _ _ Ee Esc) as (_ & _ & _ & _ & _ & _ & _ & (DS & _) & _).
    assert (forall k, (k < n_chargers c)%nat -> fv s (ea_charge a e k) == d_ev_charge d (ev_name c) e k t /\ fv s (ea_discharge a e k) == d_ev_discharge d (ev_name c) e k t /\
      fv s (ea_loss a e k) == d_ev_loss d (ev_name c) e k t /\ vars_ok s (fvars (ea_charge a e k)) /\ vars_ok s (fvars (ea_discharge a e k)) /\ vars_ok s (fvars (ea_loss a e k)) /\
      d_ev_loss d (ev_name c) e k t == d_ev_charge d (ev_name c) e k t * (1 - ce_efficiency_pct ec)) as HK.
    { intros k Hk. destruct (nth_error_lt _ _ Hk) as (cc & Ek). destruct (VM _ _ _ _ Ee Ek) as (A1 & A2 & A3). destruct (Pa e k He Hk) as (Q1 & Q2 & Q3 & Q4 & Q5).
      destruct (PM _ _ _ _ Ee Ek) as (_ & _ & _ & PL & _). rewrite Q1, Q3, Q5. tauto. }
    assert (forall k, fv s (ea_discharge sp e k) == 0 /\ vars_ok s (fvars (ea_discharge sp e k)) /\ vars_ok s (fvars (ea_charge sp e k)) /\ vars_ok s (fvars (ea_loss sp e k))) as HD.
    { intros k. destruct (Nat.eq_dec k 0) as [->|N].
      - rewrite R1, R3, R5, DS. cbn [fv fvars]. splits; auto; [reflexivity|constructor].
      - destruct (Pz e k) as (Q1 & _ & Q3 & _ & Q5); [lia|]. rewrite Q1, Q3, Q5. cbn [empty_array ea_charge ea_discharge ea_loss fv fvars]. splits; try constructor; reflexivity. }
    splits.
    + rewrite (soc_iff _ _ _ _ _ Ca Cs). cbv zeta. rewrite Z0, Z1. cbn [fv fvars]. rewrite !vars_ok_1, (cont_var_ok _ _ _ _ C0), (cont_var_ok _ _ _ _ C1).
      destruct (TM e 0%nat He nc) as (_ & _ & _ & _ & _ & T0 & T1). rewrite T0, T1. unfold between in *. splits; try tauto.
      * rewrite (Qsum_map_ext (fun k => fv s (ea_charge a e k)) (fun k => d_ev_charge d (ev_name c) e k t)) by (intros k J; apply in_seq in J; apply HK; lia).
        rewrite (Qsum_map_ext (fun k => fv s (ea_discharge a e k)) (fun k => d_ev_discharge d (ev_name c) e k t)) by (intros k J; apply in_seq in J; apply HK; lia).
        rewrite (Qsum_map_ext (fun k => fv s (ea_loss a e k)) (fun k => d_ev_loss d (ev_name c) e k t)) by (intros k J; apply in_seq in J; apply HK; lia).
        rewrite (Qsum_seq_first (fun k => fv s (ea_charge sp e k)) (n_chargers c) nc) by (intros k Hk; destruct (Pz e k Hk) as (Q1 & _); rewrite Q1; reflexivity).
        rewrite (Qsum_map_zero (fun k => fv s (ea_discharge sp e k))) by (intros k _; apply HD). rewrite R1, W1. unfold n_chargers. lra.
      * intros k Hk. destruct (HK k Hk) as (_ & _ & _ & A1 & A2 & A3 & _). destruct (HD k) as (_ & A4 & A5 & A6). auto.
    + rewrite (losses_iff _ _ _ _ _ Ca). intros k Hk. destruct (HK k Hk) as (A1 & A2 & A3 & A4 & A5 & A6 & A7). rewrite A1, A3. splits; auto. now symmetry.
    + rewrite (losses_iff _ _ _ _ _ Cs). intros k Hk. destruct (HD k) as (_ & _ & A1 & A2). splits; auto.
      destruct (Nat.eq_dec k 0) as [->|N].
      * rewrite R1, R5, W1, W6. destruct (PS _ _ _ Ee Esc) as (_ & _ & PL & _). now symmetry.
      * destruct (Pz e k) as (Q1 & _ & _ & _ & Q5); [lia|]. rewrite Q1, Q5. cbn [empty_array ea_charge ea_loss fv]. lra.
Qed.

(** the switches *)
Lemma charger_switched_eq f there cc b b' x : b == b' -> charger_switched f there cc b x -> charger_switched f there cc b' x.
Proof.
  intros E ((B & C) & D). unfold charger_switched, switch_for, bit in *. splits; rewrite <- ?E; auto.
Qed.
Lemma pair_var_bins c f cc t e v w s : cont v (Some 0) (Some (mw_to_mwh f (cg_max_mw cc))) -> is_binary_var w ->
  all_ok s (pair_cs c f cc t e (FVar v) (FVar w)) -> charger_switched f (1 <= presence c e t) cc (s (v_id w)) (s (v_id v)).
Proof.
  intros Sv B H. unfold pair_cs in H. ok_in H. destruct H as ((H1 & (V1 & _) & _) & (H2 & _) & (H3 & V3 & _) & _).
  rewrite (cont_var_ok _ _ _ _ Sv) in V1. rewrite (binary_var_ok _ _ B) in V3. rewrite !mw_energy in *. unfold charger_switched, switch_for.
  splits; auto; intros Z; rewrite Z in *; lra.
Qed.
Lemma charge_bins c f fl cc t e r s : charge_shape c t f fl e cc r -> all_ok s (pair_cs c f cc t e (eoi_charge r) (eoi_charge_bin r)) ->
  charger_switched f (can_charge fl c e t) cc (fv s (eoi_charge_bin r)) (fv s (eoi_charge r)).
Proof.
  intros [(x & b & -> & -> & Sx & Sb & L)|(-> & -> & L & ce & Ece & Nce)] H.
  - destruct (pair_var_bins _ _ _ _ _ _ _ _ Sx Sb H) as (A & B). cbn [fv]. split; [exact A|]. intros Z. destruct (B Z) as [B1 B2]. split; [exact B1|].
    unfold can_charge. destruct (limit_charge_variables_to_valid_events fl); [|exact B2].
    destruct (L eq_refl) as (ce & Ece & Hce). rewrite (event_presence _ _ _ _ Ece). exact Hce.
  - cbn [fv]. change (inject_Z 0) with 0. unfold charger_switched, switch_for, bit. splits; try (left; reflexivity); try reflexivity; intros Z; exfalso; lra.
Qed.
Lemma discharge_bins c f fl cc t e r s : discharge_shape f (allow_evs_discharge fl) cc r ->
  all_ok s (if allow_evs_discharge fl then pair_cs c f cc t e (eoi_discharge r) (eoi_discharge_bin r) else []) ->
  if allow_evs_discharge fl then charger_switched f (1 <= presence c e t) cc (fv s (eoi_discharge_bin r)) (fv s (eoi_discharge r)) else fv s (eoi_discharge_bin r) == 0.
Proof.
  unfold discharge_shape. destruct (allow_evs_discharge fl).
  - intros (x & b & -> & -> & Sx & Sb) H. exact (pair_var_bins _ _ _ _ _ _ _ _ Sx Sb H).
  - intros (_ & ->) _. reflexivity.
Qed.
Lemma evs_bin_vals c t f fl xs S0 S1 E Sp w s : evs_shape c t f fl xs S0 S1 E Sp -> Forall (oi_bin w t s) xs ->
  (forall e k, (e < n_events c)%nat -> (k < n_chargers c)%nat ->
     ind (fv s (eoi_charge_bin (E e k))) = w_ev_charge w (ev_name c) e k t /\ ind (fv s (eoi_discharge_bin (E e k))) = w_ev_discharge w (ev_name c) e k t) /\
  (forall e, (e < n_events c)%nat -> (0 < List.length (ev_spill_chargers c))%nat ->
     ind (fv s (eoi_charge_bin (Sp e 0%nat))) = w_spill_charge w (ev_name c) e t).
Proof.
  intros (-> & _ & SE & SSp) H. rewrite Forall_app in H. destruct H as [H1 H2]. rewrite Forall_forall in H1, H2. split.
  - intros e k He Hk. destruct (nth_error_lt _ _ He) as (ec & Ee). destruct (nth_error_lt _ _ Hk) as (cc & Ek).
    specialize (SE e ec k cc Ee Ek). destruct SE as (Q1 & _ & Q2 & _ & Q3 & _).
    assert (In (OIEv (E e k)) (map OIEv (grid E (n_events c) (n_chargers c)))) as I by (apply in_map, in_grid; eauto).
    specialize (H1 _ I). cbn [oi_bin] in H1. rewrite Q1, Q2, Q3 in H1. tauto.
  - intros e He Hk. destruct (nth_error_lt _ _ He) as (ec & Ee). destruct (nth_error_lt _ _ Hk) as (cc & Ek).
    specialize (SSp e ec 0%nat cc Ee Ek). destruct SSp as (Q1 & _ & Q2 & _ & Q3 & _).
    assert (In (OIEvSpill (Sp e 0%nat)) (map OIEvSpill (grid Sp (n_events c) (List.length (ev_spill_chargers c))))) as I by (apply in_map, in_grid; exists e, 0%nat; auto).
    specialize (H2 _ I). cbn [oi_bin] in H2. rewrite Q1, Q2 in H2. exact H2.
Qed.
Lemma evs_bins c t f fl xs S0 S1 E Sp a sp d w s : evs_shape c t f fl xs S0 S1 E Sp -> array_main c S0 S1 E a -> array_spill c Sp sp ->
  Forall (oi_val d t s) xs -> Forall (oi_bin w t s) xs -> all_ok s (evs_cs a sp c f fl t) -> evs_switched c f fl d w t.
Proof.
  intros SH (Ca & ne & nc & Pa & So) (Cs & L1 & _ & _ & Ps & Pz) FV FB H.
  destruct (evs_vals _ _ _ _ _ _ _ _ _ _ _ SH FV) as [VM VS]. destruct (evs_bin_vals _ _ _ _ _ _ _ _ _ _ _ SH FB) as [BM BS]. destruct SH as (_ & SS & SE & SSp).
  unfold evs_cs in H. rewrite !all_ok_app, !minmax_iff, (single_iff _ _ _ Ca), (balance_iff _ _ _ _ Ca Cs) in H.
  destruct H as (HM & HS & (HE & HC) & HB).
  assert (forall e ec k cc, nth_error (ev_event_cfgs c) e = Some ec -> nth_error (ev_chargers c) k = Some cc ->
     charger_switched f (can_charge fl c e t) cc (fv s (ea_charge_bin a e k)) (d_ev_charge d (ev_name c) e k t) /\
     (if allow_evs_discharge fl then charger_switched f (1 <= presence c e t) cc (fv s (ea_discharge_bin a e k)) (d_ev_discharge d (ev_name c) e k t) else fv s (ea_discharge_bin a e k) == 0) /\
     w_ev_charge w (ev_name c) e k t == fv s (ea_charge_bin a e k) /\ w_ev_discharge w (ev_name c) e k t == fv s (ea_discharge_bin a e k)) as PP.
  { intros e ec k cc Ee Ek. pose proof (nth_error_lt2 _ _ _ Ee) as He. pose proof (nth_error_lt2 _ _ _ Ek) as Hk.
    destruct (HM _ _ _ _ Ee Ek) as [M1 M2]. destruct (Pa e k He Hk) as (Q1 & Q2 & Q3 & Q4 & Q5). rewrite Q1, Q2 in M1. rewrite Q3, Q4 in M2.
    destruct (SE _ _ _ _ Ee Ek) as (_ & _ & _ & _ & _ & _ & CS & DS & _).
    pose proof (charge_bins _ _ _ _ _ _ _ _ CS M1) as A. pose proof (discharge_bins c f fl cc t e _ _ DS M2) as B.
    destruct (VM e k He Hk) as (W1 & W2 & _). destruct (BM e k He Hk) as (X1 & X2). rewrite W1 in A. rewrite W2 in B. rewrite Q2, Q4, <- X1, <- X2. splits; auto.
    - apply bit_ind. apply A.
    - apply bit_ind. destruct (allow_evs_discharge fl); [apply B|now left]. }
  unfold evs_switched. cbv zeta. splits.
  - intros e ec k cc Ee Ek. destruct (PP _ _ _ _ Ee Ek) as (A & B & X1 & X2). split.
    + eapply charger_switched_eq; [symmetry; exact X1|exact A].
    + destruct (allow_evs_discharge fl); [eapply charger_switched_eq; [symmetry; exact X2|exact B]|rewrite X2; exact B].
  - intros e ec cc Ee Ek. pose proof (nth_error_lt2 _ _ _ Ee) as He. pose proof (nth_error_lt2 _ _ _ Ek) as Hk.
    destruct (HS _ _ _ _ Ee Ek) as [M1 _]. destruct (Ps e He) as (Q1 & Q2 & _ & _ & Q5). rewrite Q1, Q2 in M1.
    destruct (SSp _ _ _ _ Ee Ek) as (_ & _ & _ & _ & _ & _ & CS & _).
    pose proof (charge_bins _ _ _ _ _ _ _ _ CS M1) as A. destruct (VS e He Hk) as (W1 & _). rewrite W1 in A. rewrite <- (BS e He Hk).
    eapply charger_switched_eq; [|exact A]. symmetry. apply bit_ind. apply A.
  - intros e I. apply in_seq in I. assert (e < n_events c)%nat as He by (unfold n_events in *; lia). destruct (nth_error_lt _ _ He) as (ec & Ee).
    destruct (HE e He) as [HQ _]. rewrite Qsum_app in *. unfold n_chargers in *.
    rewrite (Qsum_map_ext (fun k => w_ev_charge w (ev_name c) e k t) (fun k => fv s (ea_charge_bin a e k))),
      (Qsum_map_ext (fun k => w_ev_discharge w (ev_name c) e k t) (fun k => fv s (ea_discharge_bin a e k))); [exact HQ| |];
      intros k J; apply in_seq in J; destruct (nth_error_lt (ev_chargers c) k) as (cc & Ek); try lia; apply (PP _ _ _ _ Ee Ek).
  - intros k I. apply in_seq in I. assert (k < n_chargers c)%nat as Hk by (unfold n_chargers in *; lia). destruct (nth_error_lt _ _ Hk) as (cc & Ek).
    destruct (HC k Hk) as [HQ _]. rewrite Qsum_app in *. unfold n_events in *.
    rewrite (Qsum_map_ext (fun e => w_ev_charge w (ev_name c) e k t) (fun e => fv s (ea_charge_bin a e k))),
      (Qsum_map_ext (fun e => w_ev_discharge w (ev_name c) e k t) (fun e => fv s (ea_discharge_bin a e k))); [exact HQ| |];
      intros e J; apply in_seq in J; destruct (nth_error_lt (ev_event_cfgs c) e) as (ec & Ee); try lia; apply (PP _ _ _ _ Ee Ek).
Qed.

(** links between intervals *)
Lemma link_iff c S0 T1 s : all_ok s (link_cs S0 T1 (n_events c)) <->
  forall e, (e < n_events c)%nat -> s (v_id (S0 e)) == s (v_id (T1 e)) /\ var_ok s (S0 e) /\ var_ok s (T1 e).
Proof.
  unfold link_cs, all_ok. rewrite Forall_map, Forall_forall. split.
  - intros H e He. specialize (H e ltac:(apply in_seq; lia)). rewrite ceq_ok, !eval_evar, !evars_evar, vars_ok_app, !vars_ok_1 in H. exact H.
  - intros H e I. apply in_seq in I. rewrite ceq_ok, !eval_evar, !evars_evar, vars_ok_app, !vars_ok_1. apply H. lia.
Qed.
