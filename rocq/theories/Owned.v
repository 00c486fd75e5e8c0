(** * Owned: the variables of a program are those of its one-interval objects (proofs).
    The functions that add constraints make no variables, so they commute with every renaming
    ([Shift]); a renaming that moves all variables but those of the objects then shows that no
    other variable is used. *)
From Verif Require Import Base Pulp Params Optimizer Types Assets EVs Site Constraints Objectives Extract Pipeline Prim Emit Layout Rows Mono Shift ShiftRun SpecColumns.
Open Scope Q_scope.

Definition object_vars (iv : interval_vars) : list lpvar := flat_map oi_vars (List.concat iv).

Section Keep.
Variable P : lpvar -> bool.
Definition mv (v : lpvar) : nat := if P v then v_id v else S (v_id v).
Definition good (l : list lpvar) : Prop := forall v, In v l -> P v = true.
Notation sv := (sv mv). Notation se := (se mv). Notation so := (so mv (fun n => n)). Notation soi := (soi mv). Notation siv := (siv mv).

Lemma sv_fix v : P v = true <-> sv v = v.
Proof.
  unfold Shift.sv, mv. destruct (P v) eqn:E.
  - destruct v; cbn. tauto.
  - split; [discriminate|]. intros H. apply (f_equal v_id) in H. cbn in H. lia.
Qed.
Lemma map_fix {A} (f : A -> A) l : map f l = l <-> (forall x, In x l -> f x = x).
Proof.
  induction l as [|x l IH]; cbn; [tauto|]. split.
  - intros H. injection H as H1 H2. intros y [<-|I]; auto. now apply IH.
  - intros H. f_equal; auto. apply IH. auto.
Qed.
Lemma se_fix e : good (evars e) <-> se e = e.
Proof.
  unfold good, evars, Shift.se. destruct e as [l q]. cbn [e_terms e_const]. split.
  - intros H. f_equal. apply map_fix. intros [v k] I. cbn. f_equal. apply sv_fix, H. apply in_map_iff. now exists (v, k).
  - intros H. injection H as H. intros v I. apply in_map_iff in I. destruct I as ([w k] & <- & I). cbn. apply sv_fix.
    pose proof (proj1 (map_fix _ _) H _ I) as K. cbn in K. now injection K.
Qed.
Lemma so_fix o : good (all_occurrences o) <-> so o = o.
Proof.
  assert (so o = o <-> ((forall e, o_obj o = Some e -> se e = e) /\ (forall nc, In nc (o_cons o) -> se (c_expr (snd nc)) = c_expr (snd nc)))) as ->.
  { destruct o as [n cs ob]. unfold Shift.so. cbn. split.
    - intros H. injection H as H1 H2. split.
      + intros e ->. cbn in H2. now injection H2.
      + intros nc I. pose proof (proj1 (map_fix _ _) H1 _ I) as K. destruct nc as [nm k]. cbn in *. injection K as K. destruct k as [ex s]. unfold sc in K. cbn in K. injection K as K. exact K.
    - intros [H1 H2]. f_equal.
      + apply map_fix. intros [nm [ex s]] I. cbn. f_equal. unfold sc. cbn. f_equal. apply (H2 _ I).
      + destruct ob as [e|]; cbn; auto. f_equal. auto. }
  unfold good, all_occurrences. split.
  - intros H. split.
    + intros e E. apply se_fix. intros v I. apply H. apply in_app_iff. left. now rewrite E.
    + intros nc I. apply se_fix. intros v J. apply H. apply in_app_iff. right. apply in_flat_map. exists nc. split; auto.
  - intros [H1 H2] v I. apply in_app_iff in I. destruct I as [I|I].
    + destruct (o_obj o) as [e|]; [|contradiction]. apply (proj2 (se_fix e) (H1 _ eq_refl)), I.
    + apply in_flat_map in I. destruct I as (nc & I & J). apply (proj2 (se_fix _) (H2 _ I)), J.
Qed.
Lemma sf_fix f : (forall v, In v (fvars f) -> P v = true) -> sf mv f = f.
Proof. destruct f; cbn; auto. intros H. f_equal. apply sv_fix, H. auto. Qed.
Lemma soi_fix x : (forall v, In v (oi_vars x) -> P v = true) -> soi x = x.
Proof.
  intros H. assert (forall v, In v (oi_vars x) -> sv v = v) as K by (intros v I; now apply sv_fix, H).
  assert (forall f, incl (fvars f) (oi_vars x) -> sf mv f = f) as K2 by (intros f I; apply sf_fix; auto).
  destruct x as [r|r|r|r|r|r|r|r|r|r]; destruct r; cbn in *;
    unfold s_site, s_battery, s_boiler, s_chp, s_hp, s_rg, s_spill, s_valve, s_ev; cbn in *; f_equal; f_equal; try (apply K; tauto);
    apply K2; intros v I; repeat (apply in_app_iff; first [left; exact I|right]); exact I.
Qed.
Lemma siv_fix iv : good (object_vars iv) -> siv iv = iv.
Proof.
  intros H. apply map_fix. intros l I. apply map_fix. intros x J. apply soi_fix. intros v K. apply H. unfold object_vars. apply in_flat_map. exists x. split; auto. apply in_concat. eauto.
Qed.

Definition keeps {A} (m : M A) : Prop := forall o a o', m o = Ok (a, o') -> good (all_occurrences o) -> good (all_occurrences o').
Lemma eqv_keeps {A} (R : A -> A -> Prop) m : eqv mv (fun n => n) None R m m -> keeps m.
Proof.
  intros H o a o' E G. specialize (H o). rewrite E in H. specialize (H Logic.I). rewrite (proj1 (so_fix o) G), E in H. apply so_fix. symmetry. apply H.
Qed.
Lemma keeps_bind {A B} (m : M A) (f : A -> M B) : keeps m -> (forall a, keeps (f a)) -> keeps (bind m f).
Proof. intros H K o b o' E G. unfold bind in E. destruct (m o) as [[a o1]|] eqn:E1; [|discriminate]. eapply K; eauto. Qed.
Lemma keeps_forM_ {A} (l : list A) f : (forall x, keeps (f x)) -> keeps (forM_ l f).
Proof. intros H. induction l; cbn. - intros o a o' E G. injection E as <- <-. exact G. - apply keeps_bind; auto. Qed.

Lemma site_within_keeps dt iv i : good (object_vars iv) -> keeps (site_constrain_within dt iv i).
Proof. intros G. apply (eqv_keeps eq). rewrite <- (siv_fix _ G) at 2. apply eqv_site_within. Qed.
Lemma asset_within_keeps a iv i f fl : good (object_vars iv) -> keeps (asset_constrain_within a iv i f fl).
Proof. intros G. apply (eqv_keeps eq). rewrite <- (siv_fix _ G) at 2. apply eqv_asset_within. Qed.
Lemma asset_after_keeps a iv : good (object_vars iv) -> keeps (asset_constrain_after a iv).
Proof. intros G. apply (eqv_keeps eq). rewrite <- (siv_fix _ G) at 2. apply eqv_asset_after. Qed.
Lemma custom_keeps c iv dt : good (object_vars iv) -> keeps (add_custom_constraint c iv dt).
Proof. intros G. apply (eqv_keeps eq). rewrite <- (siv_fix _ G) at 2. apply eqv_custom. Qed.
End Keep.

(** ** The variables a computation makes *)
Inductive sub {A} : list A -> list A -> Prop :=
  | sub_nil : sub [] []
  | sub_skip x l m : sub l m -> sub l (x :: m)
  | sub_keep x l m : sub l m -> sub (x :: l) (x :: m).
Lemma sub_refl {A} (l : list A) : sub l l.
Proof. induction l; [apply sub_nil|now apply sub_keep]. Qed.
Lemma sub_none {A} (l : list A) : sub [] l.
Proof. induction l; now constructor. Qed.
Lemma sub_app {A} (a b c d : list A) : sub a b -> sub c d -> sub (a ++ c) (b ++ d).
Proof. intros S T. induction S as [|x l m S IH|x l m S IH]; cbn; [exact T|now apply sub_skip|now apply sub_keep]. Qed.
Lemma sub_in {A} (a b : list A) x : sub a b -> In x a -> In x b.
Proof. induction 1; cbn; tauto. Qed.
Lemma sub_nodup {A} (a b : list A) : sub a b -> NoDup b -> NoDup a.
Proof. induction 1 as [|x l m S IH|x l m S IH]; intros N; auto; inversion N; subst; auto. constructor; auto. intros I. apply H1. eapply sub_in; eauto. Qed.

Lemma var_dec (v w : lpvar) : {v = w} + {v <> w}.
Proof. repeat (decide equality; try apply string_dec; try apply Z.eq_dec; try apply Pos.eq_dec). Qed.
Definition inb (l : list lpvar) (v : lpvar) : bool := if in_dec var_dec v l then true else false.
Lemma inb_iff l v : inb l v = true <-> In v l.
Proof. unfold inb. destruct (in_dec var_dec v l); split; auto; discriminate. Qed.

(** new variables: their identities are between the counters, each used once *)
Definition new_ids (o o' : opt) (F : list lpvar) : Prop := exists k, o_next o' = (o_next o + k)%nat /\ sub (map v_id F) (seq (o_next o) k).
Lemma ids_none o o' : (o_next o <= o_next o')%nat -> new_ids o o' [].
Proof. intros H. exists (o_next o' - o_next o)%nat. split; [lia|apply sub_none]. Qed.
Lemma ids_refl o : new_ids o o [].
Proof. now apply ids_none. Qed.
Lemma ids_app o o1 o2 F G : new_ids o o1 F -> new_ids o1 o2 G -> new_ids o o2 (F ++ G).
Proof. intros (k & E & S) (l & E2 & T). exists (k + l)%nat. split; [lia|]. rewrite map_app, seq_app. apply sub_app; auto. now rewrite <- E. Qed.
Definition makes {A} (L : list string) (V : A -> list lpvar) (B : lpvar -> Prop) (m : M A) : Prop :=
  forall o a o', m o = Ok (a, o') -> exists F, sub (map v_name F) (map sanitize L) /\ new_ids o o' F /\
    forall v, In v (V a) \/ In v (all_occurrences o') -> In v (all_occurrences o) \/ B v \/ In v F.
Notation none := (fun _ => @nil lpvar).
Lemma makes_bind {A B} L1 L2 (V1 : A -> list lpvar) (V2 : B -> list lpvar) (K : lpvar -> Prop) m f :
  makes L1 V1 K m -> (forall a, makes L2 V2 (fun v => K v \/ In v (V1 a)) (f a)) -> makes (L1 ++ L2) V2 K (bind m f).
Proof.
  intros H1 H2 o b o' E. unfold bind in E. destruct (m o) as [[a o1]|] eqn:E1; [|discriminate].
  destruct (H1 _ _ _ E1) as (F1 & S1 & I1 & G1). destruct (H2 a _ _ _ E) as (F2 & S2 & I2 & G2). exists (F1 ++ F2)%list. split; [rewrite !map_app; now apply sub_app|]. split; [eapply ids_app; eauto|].
  intros v I. apply G2 in I. rewrite in_app_iff. destruct I as [I|[[I|I]|I]]; try tauto.
  - destruct (G1 v (or_intror I)) as [J|[J|J]]; tauto.
  - destruct (G1 v (or_introl I)) as [J|[J|J]]; tauto.
Qed.
Lemma makes_weaken {A} L L' (V V' : A -> list lpvar) (K K' : lpvar -> Prop) m :
  makes L V K m -> L = L' -> (forall a v, In v (V' a) -> In v (V a) \/ K' v) -> (forall v, K v -> K' v) -> makes L' V' K' m.
Proof.
  intros H <- HV HK o a o' E. destruct (H _ _ _ E) as (F & S & N & G). exists F. split; [|split]; auto. intros v [I|I].
  - apply HV in I. destruct I as [I|I]; [|tauto]. destruct (G v (or_introl I)) as [J|[J|J]]; auto.
  - destruct (G v (or_intror I)) as [J|[J|J]]; auto.
Qed.
Lemma makes_ret {A} (a : A) L V (K : lpvar -> Prop) : (forall v, In v (V a) -> K v) -> makes L V K (ret a).
Proof. intros H o b o' E. minv E. exists []. split; [apply sub_none|]. split; [apply ids_refl|]. intros v [I|I]; auto. Qed.
Lemma makes_lift {A} (r : res A) L V (K : lpvar -> Prop) : (forall a, r = Ok a -> forall v, In v (V a) -> K v) -> makes L V K (lift r).
Proof. intros H o b o' E. minv E. exists []. split; [apply sub_none|]. split; [apply ids_refl|]. intros v [I|I]; eauto. Qed.
Lemma makes_raise {A} e L V K : @makes A L V K (raise e).
Proof. intros o b o' E. minv E. Qed.
Lemma makes_massert b L K : makes L none K (massert b).
Proof. intros o u o' E. minv E. exists []. split; [apply sub_none|]. split; [apply ids_refl|]. intros v [[]|I]; auto. Qed.
Lemma makes_continuous n l u K : makes [n] (fun v => [v]) K (continuous n l u).
Proof.
  intros o v o' E. injection E as <- <-. exists [mkVar (o_next o) (sanitize n) false l u]. split; [apply sub_refl|]. split; [exists 1%nat; split; [cbn; lia|apply sub_refl]|]. intros w [[<-|[]]|I]; [right; right; now left|left; exact I].
Qed.
Lemma makes_binary n K : makes [n] (fun v => [v]) K (binary n).
Proof.
  intros o v o' E. injection E as <- <-. exists [mkVar (o_next o) (sanitize n) true (Some 0) (Some 1)]. split; [apply sub_refl|]. split; [exists 1%nat; split; [cbn; lia|apply sub_refl]|]. intros w [[<-|[]]|I]; [right; right; now left|left; exact I].
Qed.
Lemma makes_keeps {A} (m : M A) {MM : Mono m} (K : lpvar -> Prop) vs : (forall v, In v vs -> K v) -> (forall P, good P vs -> keeps P m) -> makes [] none K m.
Proof.
  intros HK H o a o' E. exists []. split; [apply sub_nil|]. split; [apply ids_none; exact (MM _ _ _ E)|]. intros v [[]|I].
  specialize (H (inb (all_occurrences o ++ vs))). unfold good in H. specialize (H (fun v J => proj2 (inb_iff _ _) (proj2 (in_app_iff _ _ _) (or_intror J))) o a o' E).
  specialize (H (fun v J => proj2 (inb_iff _ _) (proj2 (in_app_iff _ _ _) (or_introl J))) v I). apply inb_iff, in_app_iff in H. destruct H; auto.
Qed.
Lemma occ_named o c n o' u : constrain_named c n o = Ok (u, o') -> forall v, In v (all_occurrences o') -> In v (all_occurrences o) \/ In v (evars (c_expr c)).
Proof.
  intros E v. assert (forall nm, In v (all_occurrences (mkOpt (o_next o) (o_cons o ++ [(nm, c)]) (o_obj o))) -> In v (all_occurrences o) \/ In v (evars (c_expr c))) as H.
  { intros nm. unfold all_occurrences. cbn [o_obj o_cons]. rewrite flat_map_app, !in_app_iff. cbn [flat_map snd]. rewrite app_nil_r. tauto. }
  unfold constrain_named in E. destruct n as [n|]; [destruct (existsb _ _); [discriminate|]|]; injection E as _ <-; apply H.
Qed.
Lemma makes_constrain c (K : lpvar -> Prop) : (forall v, In v (evars (c_expr c)) -> K v) -> makes [] none K (constrain c).
Proof. intros H o u o' E. exists []. split; [apply sub_nil|]. split; [injection E as _ <-; apply ids_none; cbn; lia|]. intros v [[]|I]. destruct (occ_named _ _ None _ _ E v I); auto. Qed.
Lemma makes_forM {A B} (l : list A) (f : A -> M B) (L : A -> list string) (V : B -> list lpvar) (K : lpvar -> Prop) :
  (forall x, In x l -> makes (L x) V K (f x)) -> makes (flat_map L l) (flat_map V) K (forM l f).
Proof.
  induction l as [|x l IH]; intros H; cbn [forM flat_map]; [apply makes_ret; intros v []|].
  apply (makes_bind _ _ V); [apply H; now left|]. intros y. rewrite <- (app_nil_r (flat_map L l)).
  apply (makes_bind _ _ (flat_map V)).
  - apply (makes_weaken (flat_map L l) _ (flat_map V) _ K); auto. apply IH. intros z I. apply H. now right.
  - intros ys. apply makes_ret. intros v I. cbn [flat_map] in I. apply in_app_iff in I. tauto.
Qed.

(** ** Assets *)
Definition rowvars : list oneint -> list lpvar := flat_map oi_vars.
Definition ovars (x : oneint) : list lpvar := oi_vars x.
Ltac owned_v := let v := fresh "v" in let I := fresh "J" in intros v I; cbn in I |- *; tauto.
Ltac chain :=
  match goal with
  | |- makes (?n :: ?L) ?V _ (bind (continuous _ _ _) _) => apply (makes_bind [n] L (fun v => [v]) V); [apply makes_continuous|let a := fresh "x" in intros a]
  | |- makes (?n :: ?L) ?V _ (bind (binary _) _) => apply (makes_bind [n] L (fun v => [v]) V); [apply makes_binary|let a := fresh "x" in intros a]
  | |- makes _ _ _ (ret _) => apply makes_ret; owned_v
  end.
Ltac chains := cbn [dashed tagged site_columns map asset_columns]; repeat chain.
Lemma makes_battery c i f K : makes (asset_columns (ABattery c) i) ovars K (battery_one_interval c i f).
Proof. unfold battery_one_interval. chains. Qed.
Lemma makes_boiler c i f K : makes (asset_columns (ABoiler c) i) ovars K (boiler_one_interval c i f).
Proof. unfold boiler_one_interval. chains. Qed.
Lemma makes_chp c i f K : makes (asset_columns (ACHP c) i) ovars K (chp_one_interval c i f).
Proof. unfold chp_one_interval. chains. Qed.
Lemma app_nil_str s : (s ++ "")%string = s.
Proof. induction s; cbn; congruence. Qed.
Lemma makes_hp c i f K : makes (asset_columns (AHeatPump c) i) ovars K (hp_one_interval c i f).
Proof. unfold hp_one_interval. cbv zeta. cbn [asset_columns tagged map]. rewrite app_nil_str. chains. Qed.
Lemma makes_spill n i K : makes (asset_columns (ASpill n) i) ovars K (spill_one_interval n i).
Proof. unfold spill_one_interval. chains. Qed.
Lemma makes_valve n i K : makes (asset_columns (AValve n) i) ovars K (valve_one_interval n i).
Proof. unfold valve_one_interval. chains. Qed.
Lemma makes_rg c i K : makes (asset_columns (ARenewable c) i) ovars K (rg_one_interval c i).
Proof.
  unfold rg_one_interval. cbv zeta. cbn [asset_columns tagged map]. rewrite app_nil_str.
  match goal with |- makes ?L _ _ _ => apply (makes_bind [] L none) end; [apply makes_massert|intros _].
  match goal with |- makes ?L _ _ _ => apply (makes_bind [] L none) end; [apply makes_lift; intros ? _ v []|intros av]. chains.
Qed.
Lemma makes_site c i K : makes (site_columns i) ovars K (site_one_interval c i).
Proof. unfold site_one_interval, site_columns. chains. Qed.

(** ** EVs *)
Definition fvs (p : fval * fval) : list lpvar := (fvars (fst p) ++ fvars (snd p))%list.
Lemma makes_sub {A} L L' (V : A -> list lpvar) K m : makes L V K m -> sub (map sanitize L) (map sanitize L') -> makes L' V K m.
Proof.
  intros H S o a o' E. destruct (H _ _ _ E) as (F & T & N & G). exists F. split; [|split]; auto. clear -S T. revert T. generalize (map v_name F) as l. revert S.
  generalize (map sanitize L) as x, (map sanitize L') as y. intros x y S. induction S as [|z l m S IH|z l m S IH]; intros l' T; auto; [apply sub_skip, IH, T|].
  inversion T; subst; [apply sub_skip|apply sub_keep]; auto.
Qed.
Definition pair_quantities (sp : bool) : list string :=
  if sp then ["electric_charge_mwh"; "electric_charge_binary"; "electric_loss_mwh"]%string
  else ["electric_charge_mwh"; "electric_charge_binary"; "electric_discharge_mwh"; "electric_discharge_binary"; "electric_loss_mwh"]%string.
Lemma makes_pair c i f fl sp e ec s0 s1 k cc (K : lpvar -> Prop) : (forall v, In v (fvars s0) -> K v) -> (forall v, In v (fvars s1) -> K v) ->
  makes (pair_columns c i e cc sp (pair_quantities sp)) ovars K (ev_pair c i f fl (negb sp) sp e ec s0 s1 k cc).
Proof.
  intros H0 H1. unfold ev_pair. cbv zeta. set (nm := ("i:" ++ show i ++ ",asset:" ++ ev_name c ++ ",charge-event:" ++ show e ++ ",charger:" ++ cg_name cc ++ ",is_spill:" ++ show_bool sp)%string).
  apply (makes_sub ([("electric_charge_mwh," ++ nm)%string; ("electric_charge_binary," ++ nm)%string] ++ (if negb sp then [("electric_discharge_mwh," ++ nm)%string; ("electric_discharge_binary," ++ nm)%string] else []) ++ [("electric_loss_mwh," ++ nm)%string])%list).
  2:{ unfold pair_columns, tagged, pair_quantities, nm. destruct sp; cbn; apply sub_refl. }
  apply (makes_bind _ _ fvs).
  { destruct (limit_charge_variables_to_valid_events fl).
    - apply (makes_bind [] _ none); [apply makes_lift; intros ? _ v []|intros ce]. destruct (Qeq_bool ce 1); [chains|apply makes_ret; owned_v].
    - chains. }
  intros p. apply (makes_bind _ _ fvs).
  { destruct sp; cbn [negb andb]; [apply makes_ret; owned_v|]. destruct (allow_evs_discharge fl); [chains|apply makes_ret; owned_v]. }
  intros q. chain. apply makes_ret. intros v I. assert (In v (oi_vars (OIEv (mkEvOI c i e ec k cc (fst p) (snd p) (fst q) (snd q) s0 s1 (FVar x))))) as J by (destruct sp; exact I).
  clear I. cbn in J |- *. unfold fvs. rewrite !in_app_iff in *. cbn in J |- *. destruct J as [J|[J|[J|[J|[J|[J|J]]]]]]; try tauto; [apply H0 in J|apply H1 in J]; tauto.
Qed.
Lemma makes_event c ch i f fl (sp : bool) e ec K :
  makes ((if sp then @nil string else tagged ["initial_soc_mwh"; "final_soc_mwh"]%string i (ev_name c) (",charge_event:" ++ ce_name ec)%string)
         ++ flat_map (fun cc => pair_columns c i e cc sp (pair_quantities sp)) ch)%list rowvars K (ev_event c ch i f fl (negb sp) (negb sp) sp e ec).
Proof.
  unfold ev_event. cbv zeta. apply (makes_bind _ _ fvs).
  { destruct sp; cbn [negb]; [apply makes_ret; owned_v|]. chains. }
  intros p. assert (flat_map (fun cc => pair_columns c i e cc sp (pair_quantities sp)) ch = flat_map (fun kc : nat * charger_cfg => pair_columns c i e (snd kc) sp (pair_quantities sp)) (enumerate ch)) as ->.
  { unfold enumerate. generalize 0%nat. induction ch as [|x ch IH]; intros n; cbn; auto. now rewrite <- IH. }
  apply makes_forM. intros kc _. apply makes_pair; intros v J; right; unfold fvs; apply in_app_iff; auto.
Qed.
Lemma rowvars_concat l v : In v (rowvars (List.concat l)) <-> In v (flat_map rowvars l).
Proof.
  unfold rowvars. rewrite !in_flat_map. split.
  - intros (x & I & J). apply in_concat in I. destruct I as (r & I1 & I2). exists r. split; auto. apply in_flat_map. eauto.
  - intros (r & I & J). apply in_flat_map in J. destruct J as (x & J1 & J2). exists x. split; auto. apply in_concat. eauto.
Qed.
Lemma makes_for c ch i f fl (sp : bool) K :
  makes (flat_map (fun ee : nat * charge_event_cfg => (if sp then @nil string else tagged ["initial_soc_mwh"; "final_soc_mwh"]%string i (ev_name c) (",charge_event:" ++ ce_name (snd ee))%string)
         ++ flat_map (fun cc => pair_columns c i (fst ee) cc sp (pair_quantities sp)) ch) (enumerate (ev_event_cfgs c)))%list rowvars K
    (evs_one_interval_for c ch i f fl (negb sp) (negb sp) sp).
Proof.
  unfold evs_one_interval_for. rewrite <- (app_nil_r (flat_map _ _)). apply (makes_bind _ _ (flat_map rowvars)).
  - apply makes_forM. intros ee _. apply (makes_event c ch i f fl sp (fst ee) (snd ee)).
  - intros l. apply makes_ret. intros v I. right. now apply rowvars_concat.
Qed.
Lemma makes_evs c i f fl K : makes (asset_columns (AEVs c) i) rowvars K (evs_one_interval c i f fl).
Proof.
  unfold evs_one_interval. cbn [asset_columns]. apply (makes_bind _ _ rowvars); [exact (makes_for c (ev_chargers c) i f fl false K)|]. intros a.
  rewrite <- (app_nil_r (flat_map _ _)). apply (makes_bind _ _ rowvars); [exact (makes_for c (ev_spill_chargers c) i f fl true _)|].
  intros b. apply makes_ret. intros v I. unfold rowvars in *. rewrite flat_map_app in I. apply in_app_iff in I. tauto.
Qed.
Lemma makes_one {A} (m : M A) (w : A -> list oneint) L (K : lpvar -> Prop) (V : A -> list lpvar) : makes L V K m -> (forall a v, In v (rowvars (w a)) -> In v (V a)) ->
  makes L rowvars K (x <- m ;; ret (w x)).
Proof. intros H HV. rewrite <- (app_nil_r L). apply (makes_bind _ _ V); auto. intros a. apply makes_ret. intros v I. right. now apply HV. Qed.
Lemma makes_asset a i f fl K : makes (asset_columns a i) rowvars K (asset_one_interval a i f fl).
Proof.
  destruct a; cbn [asset_one_interval]; try apply makes_evs;
    (apply (makes_one _ (fun x => [x]) _ _ ovars); [first [apply makes_battery|apply makes_boiler|apply makes_chp|apply makes_hp|apply makes_rg|apply makes_spill|apply makes_valve]|
      intros x v I; unfold rowvars, ovars in *; cbn [flat_map] in I; now rewrite app_nil_r in I]).
Qed.

(** ** The site *)
Lemma makes_forM_ {A} (l : list A) f (K : lpvar -> Prop) : (forall x, makes [] none K (f x)) -> makes [] none K (forM_ l f).
Proof.
  intros H. induction l as [|x l IH]; cbn; [apply makes_ret; intros v []|]. apply (makes_bind [] [] none); auto. intros _. eapply makes_weaken; [exact IH|reflexivity|auto|auto].
Qed.
Definition row_columns (assets : list asset) (t : nat) : list string := (site_columns t ++ flat_map (fun a => asset_columns a t) assets)%list.
Lemma object_vars_app a b v : In v (object_vars (a ++ b)%list) <-> In v (object_vars a) \/ In v (object_vars b).
Proof. unfold object_vars. rewrite concat_app, flat_map_app, in_app_iff. tauto. Qed.
Lemma makes_interval c assets fl iv i (K : lpvar -> Prop) : (forall v, In v (object_vars iv) -> K v) ->
  makes (row_columns assets i) object_vars K (site_interval c assets fl iv i).
Proof.
  intros HK. unfold site_interval, row_columns. apply (makes_bind _ _ ovars); [apply makes_site|]. intros s.
  rewrite <- (app_nil_r (flat_map _ _)). apply (makes_bind _ _ (flat_map rowvars)); [apply makes_forM; intros a _; apply makes_asset|]. intros xs. cbv zeta.
  set (iv' := (iv ++ [s :: List.concat xs])%list). set (K' := fun v => (K v \/ In v (ovars s)) \/ In v (flat_map rowvars xs)).
  assert (forall v, In v (object_vars iv') -> K' v) as HK'.
  { intros v I. apply object_vars_app in I. destruct I as [I|I]; [left; left; now apply HK|]. unfold object_vars in I. cbn [List.concat] in I. rewrite app_nil_r in I. cbn [flat_map] in I.
    apply in_app_iff in I. destruct I as [I|I]; [left; right; exact I|]. right. now apply rowvars_concat. }
  apply (makes_bind [] [] none); [apply (makes_keeps _ _ (object_vars iv')); auto; intros P G; now apply site_within_keeps|]. intros _.
  apply (makes_bind [] [] none). { apply makes_forM_. intros a. apply (makes_keeps _ _ (object_vars iv')); [auto|]. intros P G. now apply asset_within_keeps. }
  intros _. apply makes_ret. auto.
Qed.
Lemma makes_intervals c assets fl idx : forall iv (K : lpvar -> Prop), (forall v, In v (object_vars iv) -> K v) ->
  makes (flat_map (row_columns assets) idx) object_vars K (site_intervals c assets fl iv idx).
Proof.
  induction idx as [|i idx IH]; intros iv K HK; cbn [site_intervals flat_map]; [now apply makes_ret|].
  apply (makes_bind _ _ object_vars); [now apply makes_interval|]. intros iv'. apply IH. auto.
Qed.
Lemma makes_base c assets fl K : makes (base_columns assets (id_n (sc_idata c))) object_vars K (build_base c assets fl).
Proof.
  unfold build_base. apply (makes_bind [] (base_columns assets (id_n (sc_idata c))) none); [apply makes_massert|]. intros _.
  rewrite <- (app_nil_r (base_columns _ _)). apply (makes_bind _ _ object_vars); [apply (makes_intervals c assets fl (seq 0 (id_n (sc_idata c))) []); intros v []|]. intros iv.
  apply (makes_bind [] [] none). { apply makes_forM_. intros a. apply (makes_keeps _ _ (object_vars iv)); [auto|]. intros P G. now apply asset_after_keeps. }
  intros _. apply makes_ret. auto.
Qed.

(** ** Objectives *)
Lemma lift_good iv (F : interval_vars -> res (list aexpr)) : (forall mv, req (by_f (map (se mv))) (F iv) (F (siv mv iv))) ->
  forall es, F iv = Ok es -> forall v, In v (flat_map evars es) -> In v (object_vars iv).
Proof.
  intros H es E v I. specialize (H (mv (inb (object_vars iv)))). rewrite siv_fix in H by (intros w J; now apply inb_iff). rewrite E in H. cbn in H. unfold by_f in H.
  apply in_flat_map in I. destruct I as (e & I & J). symmetry in H. pose proof (proj1 (map_fix _ _) H e I) as K. apply se_fix in K. apply inb_iff, K, J.
Qed.
Lemma operand_good iv i x f : two_term_operand iv i x = Ok f -> forall v, In v (fvars f) -> In v (object_vars iv).
Proof.
  intros E v I. pose proof (req_operand (mv (inb (object_vars iv))) iv i x) as H. rewrite siv_fix in H by (intros w J; now apply inb_iff). rewrite E in H. cbn in H. unfold by_f in H.
  destruct f; cbn in I; try contradiction. destruct I as [<-|[]]. cbn in H. injection H as H. symmetry in H. apply sv_fix, inb_iff in H. exact H.
Qed.
Lemma operands_good iv t fs : many_operands iv t = Ok fs -> forall f v, In f fs -> In v (fvars f) -> In v (object_vars iv).
Proof.
  intros E f v J I. pose proof (req_many_operands (mv (inb (object_vars iv))) iv t) as H. rewrite siv_fix in H by (intros w JJ; now apply inb_iff). rewrite E in H. cbn in H. unfold by_f in H.
  symmetry in H. pose proof (proj1 (map_fix _ _) H f J) as K. destruct f; cbn in I; try contradiction. destruct I as [<-|[]]. cbn in K. injection K as K. apply sv_fix, inb_iff in K. exact K.
Qed.
Definition fargs (l : list fval) : list lpvar := flat_map fvars l.
Lemma evars_escale e q v : In v (evars (escale e q)) -> In v (evars e).
Proof. unfold evars, escale. destruct (Qeq_bool q 0); cbn; [tauto|]. now rewrite map_map. Qed.
Lemma evars_eadd a b v : In v (evars (eadd a b)) <-> In v (evars a) \/ In v (evars b).
Proof. unfold evars, eadd. cbn. rewrite map_app, in_app_iff. tauto. Qed.
Lemma evars_eneg a v : In v (evars (eneg a)) <-> In v (evars a).
Proof. unfold evars, eneg. cbn. rewrite map_map. reflexivity. Qed.
Lemma evars_esub a b v : In v (evars (esub a b)) <-> In v (evars a) \/ In v (evars b).
Proof. unfold esub. rewrite evars_eadd, evars_eneg. tauto. Qed.
Lemma evars_fexpr f : evars (fexpr f) = fvars f.
Proof. destruct f; reflexivity. Qed.
Lemma evars_esum l v : In v (evars (esum l)) -> In v (flat_map evars l).
Proof.
  unfold esum. assert (forall a, In v (evars (fold_left eadd l a)) -> In v (evars a) \/ In v (flat_map evars l)) as H.
  { induction l as [|x l IH]; intros a; cbn; [tauto|]. intros I. apply IH in I. rewrite evars_eadd in I. rewrite in_app_iff. tauto. }
  intros I. apply H in I. destruct I as [[]|I]; auto.
Qed.
Ltac occurs_in J :=
  repeat first
  [ rewrite evars_eadd in J | rewrite evars_esub in J | rewrite evars_eneg in J | rewrite evars_fexpr in J
  | match type of J with
    | _ \/ _ => let J1 := fresh "J" in destruct J as [J1|J1]; occurs_in J1
    | In _ (evars (escale _ _)) => apply evars_escale in J
    | In _ (evars (evar _)) => destruct J as [J|[]]
    | In _ (evars (econst _)) => destruct J
    end ].
Ltac constrained := apply makes_constrain; let v := fresh "v" in let J := fresh "J" in intros v J; unfold cle, cge, ceq in J; cbn [c_expr] in J; occurs_in J; cbn [In]; subst; try (match goal with H : forall w, _ -> ?K w |- _ => pose proof (H v) end); tauto.
Lemma makes_two (mx : bool) n a b q (K : lpvar -> Prop) : (forall v, In v (fvars a) \/ In v (fvars b) -> K v) ->
  makes [(n ++ "-continuous")%string; (n ++ "-binary")%string] (fun v => [v]) K ((if mx then max_two_variables else min_two_variables) n a b q).
Proof.
  intros H. destruct mx; [unfold max_two_variables|unfold min_two_variables];
    (match goal with |- makes ?L _ _ _ => apply (makes_bind [] L none) end; [apply makes_massert|intros _];
     match goal with |- makes ?L _ _ _ => apply (makes_bind [] L none) end; [apply makes_massert|intros _]; chain; chain;
     repeat (apply (makes_bind [] [] none); [constrained|intros _]); chain).
Qed.

Lemma makes_binaries n {A} (l : list A) K : forall i, makes (map (fun j => n ++ "-binary-" ++ show j)%string (seq i (List.length l))) (fun bs => bs) K (many_binaries n i l).
Proof.
  induction l as [|x l IH]; intros i; cbn [many_binaries List.length seq map]; [apply makes_ret; owned_v|].
  chain. rewrite <- (app_nil_r (map _ _)). apply (makes_bind _ _ (fun bs => bs)).
  - eapply makes_weaken; [apply IH|reflexivity|auto|auto].
  - intros bs. apply makes_ret. owned_v.
Qed.
Lemma makes_nonneg f K : makes [] none K (nonneg_check f).
Proof. destruct f; cbn; try apply makes_massert; try apply makes_raise. destruct (v_low v); [apply makes_massert|apply makes_raise]. Qed.
Lemma makes_loop {A} (l : list A) f (K : lpvar -> Prop) : (forall x, In x l -> makes [] none K (f x)) -> makes [] none K (forM_ l f).
Proof.
  intros H. induction l as [|x l IH]; cbn; [apply makes_ret; intros v []|]. apply (makes_bind [] [] none); [apply H; now left|]. intros _. eapply makes_weaken; [apply IH; intros y I; apply H; now right|reflexivity|auto|auto].
Qed.
Lemma makes_many (mx : bool) n vs q (K : lpvar -> Prop) : (forall v, In v (fargs vs) -> K v) ->
  makes ((n ++ "-continuous")%string :: map (fun j => n ++ "-binary-" ++ show j)%string (seq 0 (List.length vs))) (fun v => [v]) K ((if mx then max_many_variables else min_many_variables) n vs q).
Proof.
  intros H. assert (forall f v, In f vs -> In v (fvars f) -> K v) as H'. { intros f v I J. apply H. unfold fargs. apply in_flat_map. eauto. } clear H.
  destruct mx; [unfold max_many_variables|unfold min_many_variables];
    (match goal with |- makes ?L _ _ _ => apply (makes_bind [] L none) end; [apply makes_massert|intros _]; chain;
     rewrite <- (app_nil_r (map _ _)); apply (makes_bind _ _ (fun bs => bs)); [apply makes_binaries|]; intros bs;
     apply (makes_bind [] [] none); [apply makes_forM_; intros; apply makes_nonneg|]; intros _).
  - apply (makes_bind [] [] none); [|intros _; apply makes_ret; owned_v]. apply makes_loop. intros [f b] I. pose proof (in_combine_l _ _ _ _ I) as I1. pose proof (in_combine_r _ _ _ _ I) as I2. clear I. cbn [fst snd].
    pose proof (fun v => H' f v I1) as HF. apply (makes_bind [] [] none); [constrained|]. intros _. destruct f; try (apply makes_ret; owned_v).
    assert (K v) as KV by (apply HF; now left). constrained.
  - apply (makes_bind [] [] none).
    + apply makes_loop. intros [f b] I. pose proof (in_combine_l _ _ _ _ I) as I1. pose proof (in_combine_r _ _ _ _ I) as I2. clear I. cbn [fst snd].
      pose proof (fun v => H' f v I1) as HF. apply (makes_bind [] [] none); [constrained|]. intros _. constrained.
    + intros _. apply (makes_bind [] [] none); [|intros _; apply makes_ret; owned_v]. apply makes_constrain. intros v J. unfold cle in J. cbn [c_expr] in J. occurs_in J.
      apply evars_esum, in_flat_map in J0. destruct J0 as (e & J1 & J2). apply in_map_iff in J1. destruct J1 as (w & <- & J1). destruct J2 as [<-|[]]. tauto.
Qed.
Definition operands_of (iv : interval_vars) (t : many_term) : nat := match many_operands iv t with Ok vs => List.length vs | Err _ => 0%nat end.
Lemma makes_two_at iv dt w i (K : lpvar -> Prop) : (forall v, In v (object_vars iv) -> K v) ->
  makes [(two_label w i ++ "-continuous")%string; (two_label w i ++ "-binary")%string] evars K (two_term_at iv dt w i).
Proof.
  intros HK. unfold two_term_at.
  match goal with |- makes ?L _ _ _ => apply (makes_bind [] L none) end; [apply makes_lift; intros ? _ v []|intros _].
  match goal with |- makes ?L _ _ _ => apply (makes_bind [] L none) end; [apply makes_lift; intros ? _ v []|intros _].
  match goal with |- makes ?L _ _ _ => apply (makes_bind [] L fvars) end; [apply makes_lift; intros f E v I; left; left; apply HK; eapply operand_good; eauto|intros a].
  match goal with |- makes ?L _ _ _ => apply (makes_bind [] L fvars) end; [apply makes_lift; intros f E v I; left; left; left; apply HK; eapply operand_good; eauto|intros b].
  cbv zeta. fold (two_label w i). rewrite <- (app_nil_r [_; _]). apply (makes_bind _ _ (fun v => [v])).
  - replace (if (w_function w =? "max_two_variables")%string then max_two_variables (two_label w i) a b (w_M w) else min_two_variables (two_label w i) a b (w_M w))
      with ((if (w_function w =? "max_two_variables")%string then max_two_variables else min_two_variables) (two_label w i) a b (w_M w)) by (now destruct (w_function w =? "max_two_variables")%string).
    apply makes_two. intros v J. cbn. tauto.
  - intros c. apply (makes_bind [] [] none); [apply makes_lift; intros ? _ v []|]. intros q. apply makes_ret. intros v I. apply evars_escale, evars_escale in I. destruct I as [<-|[]]. cbn. tauto.
Qed.
Lemma makes_known {A B} L V K (a : A) (f : A -> M B) : makes L V K (f a) -> makes L V K (bind (lift (Ok a)) f).
Proof. intros H. exact H. Qed.
Lemma makes_two_term iv dt k (K : lpvar -> Prop) : (forall v, In v (object_vars iv) -> K v) ->
  makes (two_columns (id_n dt) k) (flat_map evars) K (add_two_variable_term iv dt k).
Proof.
  intros HK. unfold add_two_variable_term. destruct (one_term_type k =? "complex")%string; [|apply makes_ret; owned_v].
  destruct k as [t|w|m]; cbn [one_term_function].
  - intros o a o' E. discriminate.
  - apply makes_known. cbn [two_columns]. unfold two_added, one_of. cbn [existsb]. rewrite orb_false_r. fold (is_two_function (w_function w)).
    destruct (is_two_function (w_function w)); [|apply makes_ret; owned_v]. apply makes_forM. intros i _. now apply makes_two_at.
  - apply makes_known. destruct (is_two_function (m_function m)); [apply makes_raise|apply makes_ret; owned_v].
Qed.
Lemma makes_many_term iv k (K : lpvar -> Prop) : (forall v, In v (object_vars iv) -> K v) ->
  makes (many_columns (operands_of iv) k) (flat_map evars) K (add_many_variables_term iv k).
Proof.
  intros HK. unfold add_many_variables_term. destruct (one_term_type k =? "complex")%string; [|apply makes_ret; owned_v].
  destruct k as [t|w|m]; cbn [one_term_function].
  - intros o a o' E. discriminate.
  - apply makes_known. destruct (is_many_function (w_function w)); [apply makes_raise|apply makes_ret; owned_v].
  - apply makes_known. cbn [many_columns]. unfold many_added, one_of. cbn [existsb]. rewrite orb_false_r. fold (is_many_function (m_function m)).
    destruct (is_many_function (m_function m)); [|apply makes_ret; owned_v].
    match goal with |- makes ?L _ _ _ => apply (makes_bind [] L none) end; [apply makes_massert|intros _]. unfold operands_of.
    destruct (many_operands iv m) as [vs|e] eqn:E; [|intros o a o' X; discriminate]. apply makes_known. cbv beta zeta. fold (many_label m).
    match goal with |- makes ?L _ _ _ => rewrite <- (app_nil_r L) end. apply (makes_bind _ _ (fun v => [v])).
    + replace (if (m_function m =? "max_many_variables")%string then max_many_variables (many_label m) vs (m_M m) else min_many_variables (many_label m) vs (m_M m))
        with ((if (m_function m =? "max_many_variables")%string then max_many_variables else min_many_variables) (many_label m) vs (m_M m)) by (now destruct (m_function m =? "max_many_variables")%string).
      apply makes_many. intros v J. left. apply HK. unfold fargs in J. apply in_flat_map in J. destruct J as (f & J1 & J2). eapply operands_good; eauto.
    + intros c. apply makes_ret. intros v I. cbn [flat_map] in I. rewrite app_nil_r in I. apply evars_escale in I. destruct I as [<-|[]]. cbn. tauto.
Qed.
Lemma concat_evars (l : list (list aexpr)) v : In v (flat_map evars (List.concat l)) <-> In v (flat_map (flat_map evars) l).
Proof.
  induction l as [|x l IH]; cbn; [tauto|]. rewrite flat_map_app, !in_app_iff, IH. tauto.
Qed.
Lemma makes_objective obj iv dt (K : lpvar -> Prop) : (forall v, In v (object_vars iv) -> K v) ->
  makes (objective_columns (id_n dt) (operands_of iv) obj) evars K (get_objective obj iv dt).
Proof.
  intros HK. destruct obj as [s|ts]; cbn [get_objective objective_columns].
  - assert (forall (F : interval_vars -> res aexpr), (forall mv, req (by_f (se mv)) (F iv) (F (siv mv iv))) -> makes [] evars K (lift (F iv))) as H.
    { intros F R. apply makes_lift. intros e E v I. apply HK. apply (lift_good iv (fun iv => let! e := F iv in Ok [e])) with (es := [e]).
      - intros mv. eapply req_bind; [apply R|]. intros x y ->. reflexivity.
      - now rewrite E.
      - cbn. now rewrite app_nil_r. }
    destruct (s =? "price")%string; [apply (H (fun iv => price_objective iv dt)); intros mv; apply req_price|].
    destruct (s =? "carbon")%string; [apply (H (fun iv => carbon_objective iv dt)); intros mv; apply req_carbon|]. apply makes_raise.
  - apply (makes_bind [] _ (flat_map evars)). { apply makes_lift. intros es E v I. apply HK. eapply (lift_good iv (fun iv => add_simple_terms iv dt ts)); eauto. intros mv. apply req_simples. }
    intros a. apply (makes_bind _ _ (flat_map evars)).
    { unfold add_two_variable_terms. rewrite <- (app_nil_r (flat_map (two_columns _) _)). apply (makes_bind _ _ (flat_map (flat_map evars))).
      - apply makes_forM. intros k _. apply makes_two_term. intros v I. left. auto.
      - intros ls. apply makes_ret. intros v I. right. now apply concat_evars. }
    intros b. rewrite <- (app_nil_r (flat_map (many_columns _) _)). apply (makes_bind _ _ (flat_map evars)).
    { unfold add_many_variables_terms. rewrite <- (app_nil_r (flat_map (many_columns _) _)). apply (makes_bind _ _ (flat_map (flat_map evars))).
      - apply makes_forM. intros k _. apply makes_many_term. intros v I. left. left. auto.
      - intros ls. apply makes_ret. intros v I. right. now apply concat_evars. }
    intros c. apply makes_ret. intros v I. apply evars_esum in I. rewrite !flat_map_app, !in_app_iff in I. tauto.
Qed.
(** All variables of a program have one of the names. *)
Theorem program_objects c assets cons obj fl base iv o : build_program c assets cons obj fl (new_optimizer base) = Ok (iv, o) ->
  exists F, sub (map v_name F) (map sanitize (base_columns assets (id_n (sc_idata c)) ++ objective_columns (id_n (sc_idata c)) (operands_of iv) obj)%list) /\ new_ids (new_optimizer base) o F /\
    forall v, In v (all_occurrences o) \/ In v (object_vars iv) -> In v F.
Proof.
  intros E. unfold build_program in E. minv E.
  match goal with H : build_base _ _ _ _ = Ok _ |- _ => destruct (makes_base c assets fl (fun _ => False) _ _ _ H) as (F1 & S1 & I1 & G1) end.
  match goal with H : forM_ cons _ _ = Ok _ |- _ => pose proof (makes_forM_ cons (fun k => add_custom_constraint k iv (sc_idata c)) (fun v => In v (object_vars iv))
    (fun k => makes_keeps _ _ (object_vars iv) (fun v I => I) (fun P G => custom_keeps P k iv (sc_idata c) G)) _ _ _ H) as (F2 & S2 & I2 & G2) end.
  match goal with H : get_objective _ _ _ _ = Ok _ |- _ => destruct (makes_objective obj iv (sc_idata c) (fun v => In v (object_vars iv)) (fun v I => I) _ _ _ H) as (F3 & S3 & I3 & G3) end.
  exists (F1 ++ F3)%list. split; [rewrite !map_app; apply sub_app; assumption|]. inversion S2 as [X1 X2| |]. destruct F2; [|discriminate]. clear X1 X2.
  match goal with H : set_objective _ _ = Ok _ |- _ => injection H as _ <- end.
  split. { assert (new_ids (new_optimizer base) o2 (F1 ++ [] ++ F3)%list) as N by (eapply ids_app; [exact I1|eapply ids_app; [exact I2|exact I3]]). exact N. }
  assert (forall v, In v (object_vars iv) -> In v F1) as O1. { intros v I. destruct (G1 v (or_introl I)) as [[]|[[]|J]]; auto. }
  intros v [I|I]; [|apply in_app_iff; left; now apply O1]. apply in_app_iff.
  unfold all_occurrences in I. cbn [o_obj o_cons] in I. apply in_app_iff in I.
  assert (forall w, In w (all_occurrences o1) -> In w F1) as W.
  { intros w J. destruct (G2 w (or_intror J)) as [J2|[J2|[]]]; auto. destruct (G1 w (or_intror J2)) as [[]|[[]|J3]]; auto. }
  destruct I as [I|I]; [destruct (G3 v (or_introl I)) as [J|[J|J]]; auto|].
  destruct (G3 v (or_intror (proj2 (in_app_iff _ _ _) (or_intror I)))) as [J|[J|J]]; auto.
Qed.
Theorem program_made c assets cons obj fl base iv o : build_program c assets cons obj fl (new_optimizer base) = Ok (iv, o) ->
  exists F, sub (map v_name F) (map sanitize (base_columns assets (id_n (sc_idata c)) ++ objective_columns (id_n (sc_idata c)) (operands_of iv) obj)%list) /\ new_ids (new_optimizer base) o F /\
    forall v, In v (all_occurrences o) -> In v F.
Proof. intros E. destruct (program_objects _ _ _ _ _ _ _ _ E) as (F & A & B & C). exists F. auto. Qed.
