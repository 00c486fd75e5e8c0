(** * Columns: the names of the columns are pairwise different (proofs) *)
From Verif Require Import Base Pulp Params Optimizer Types EVs Constraints Objectives Prim Emit Builds Totals2 SpecColumns Owned.
Open Scope string_scope.

(** ** Characters *)
Fixpoint mem (c : ascii) (s : string) : bool := match s with EmptyString => false | String d s => Ascii.eqb c d || mem c s end.
Lemma mem_app c a b : mem c (a ++ b) = (mem c a || mem c b)%bool.
Proof. induction a; cbn; auto. now rewrite IHa, orb_assoc. Qed.
Lemma app_ass a b c : (a ++ b) ++ c = a ++ (b ++ c).
Proof. induction a; cbn; congruence. Qed.
Lemma app_inj_l a b c : a ++ b = a ++ c -> b = c.
Proof. induction a; cbn; auto. intros H. injection H as H. auto. Qed.
Lemma split_first c a b x y : mem c a = false -> mem c b = false -> a ++ String c x = b ++ String c y -> a = b /\ x = y.
Proof.
  revert b. induction a as [|d a IH]; intros [|e b] A B; cbn in *; intros H.
  - injection H as <-. auto.
  - injection H as <- _. rewrite Ascii.eqb_refl in B. discriminate.
  - injection H as <- _. rewrite Ascii.eqb_refl in A. discriminate.
  - injection H as <- H. apply orb_false_elim in A, B. destruct A as [_ A], B as [_ B]. destruct (IH _ A B H) as [-> ->]. auto.
Qed.
Lemma mem_mid c a x : mem c (a ++ String c x) = true.
Proof. rewrite mem_app. cbn. rewrite Ascii.eqb_refl. now rewrite orb_true_r. Qed.
Lemma split_last c x y : forall a b, mem c x = false -> mem c y = false -> a ++ String c x = b ++ String c y -> a = b /\ x = y.
Proof.
  induction a as [|d a IH]; intros [|e b] X Y; cbn; intros H.
  - injection H as <-. auto.
  - injection H as -> ->. now rewrite mem_mid in X.
  - injection H as -> <-. now rewrite mem_mid in Y.
  - injection H as -> H. destruct (IH b X Y H) as [-> ->]. auto.
Qed.
Lemma app_inj_r a b : forall s, a ++ s = b ++ s -> a = b.
Proof.
  assert (forall u v, String.length (u ++ v) = (String.length u + String.length v)%nat) as LN by (induction u; cbn; congruence).
  intros s H. assert (String.length a = String.length b) as L. { apply (f_equal String.length) in H. rewrite !LN in H. lia. }
  revert b L H. induction a as [|c a IH]; intros [|d b] L H; cbn in *; try discriminate; auto. injection H as -> H. f_equal. apply IH; auto.
Qed.
Lemma mem_contains c s : contains (String c "") s = mem c s.
Proof.
  induction s as [|d s IH]; [reflexivity|]. cbn [contains mem]. rewrite IH. f_equal. cbn [prefix]. destruct (ascii_dec c d) as [->|N].
  - rewrite Ascii.eqb_refl. destruct s; reflexivity.
  - symmetry. now apply Ascii.eqb_neq.
Qed.
(** ** Replacing characters *)
Lemma sanitize_app a b : sanitize (a ++ b) = sanitize a ++ sanitize b.
Proof. induction a; cbn; congruence. Qed.
Lemma mem_sanitize c s : existsb (Ascii.eqb c) ["-"; "+"; "["; "]"; " "; ">"; "/"; "_"]%char = false -> mem c (sanitize s) = mem c s.
Proof.
  intros N. induction s as [|d s IH]; cbn [sanitize mem]; auto. rewrite IH. f_equal. unfold sanitize_char. destruct (existsb (Ascii.eqb d) _) eqn:E; auto.
  transitivity false.
  - cbn in N. repeat (apply orb_false_elim in N; let A := fresh in destruct N as [A N]). assumption.
  - symmetry. apply Ascii.eqb_neq. intros <-. cbn in N, E. repeat (apply orb_false_elim in N; let A := fresh in destruct N as [A N]; rewrite ?A in E). discriminate.
Qed.
Lemma mem_show c n : digits (String c "") = false -> mem c (show n) = false.
Proof. intros D. rewrite <- mem_contains. apply digits_free; auto. apply show_digits. Qed.
Lemma sanitize_show n : sanitize (show n) = show n.
Proof.
  pose proof (show_digits n) as D. induction (show n) as [|d s IH]; auto. cbn [digits] in D. apply andb_true_iff in D. destruct D as [D1 D2]. cbn [sanitize]. rewrite (IH D2). f_equal.
  unfold sanitize_char. destruct (existsb (Ascii.eqb d) _) eqn:E; auto. apply existsb_exists in E. destruct E as (x & I & E). apply Ascii.eqb_eq in E. subst x.
  cbn in I. repeat (destruct I as [<-|I]; [discriminate|]). contradiction.
Qed.

(** ** Keys *)
Inductive key := KSite (q : string) (t : nat) | KDash (n q : string) (t : nat) | KTag (q : string) (t : nat) (n rest : string).
Definition render (k : key) : string :=
  match k with
  | KSite q t => q ++ "_" ++ show t
  | KDash n q t => n ++ "_" ++ q ++ "_" ++ show t
  | KTag q t n rest => q ++ ",i:" ++ show t ++ ",asset:" ++ n ++ rest
  end.
Definition site_q : list string := ["import_power_mw"; "export_power_mw"; "import_power_bin"; "export_power_bin"].
Definition dash_q : list string :=
  ["electric_charge_mwh"; "electric_discharge_mwh"; "electric_charge_binary"; "electric_discharge_binary"; "electric_loss_mwh"; "electric_initial_charge_mwh"; "electric_final_charge_mwh";
   "high_temperature_generation_mwh"; "binary_mwh"; "gas_consumption_mwh"; "electric_generation_mwh"; "low_temperature_generation_mwh"; "electric_load_mwh"; "low_temperature_load_mwh"; "high_temperature_load_mwh"].
Definition tag_q : list string :=
  ["initial_soc_mwh"; "final_soc_mwh"; "electric_charge_mwh"; "electric_charge_binary"; "electric_discharge_mwh"; "electric_discharge_binary"; "electric_loss_mwh";
   "electric_load_mwh"; "electric_load_binary"; "low_temperature_load_mwh"; "high_temperature_generation_mwh"; "electric_generation_mwh"].
Definition wf (k : key) : Prop :=
  match k with
  | KSite q t => In q site_q
  | KDash n q t => In q dash_q /\ mem "," n = false
  | KTag q t n rest => In q tag_q /\ mem "," n = false /\ (rest = "" \/ exists r, rest = String "," r)
  end.
Lemma in_check (p : string -> bool) q l : In q l -> forallb p l = true -> p q = true.
Proof. intros I H. rewrite forallb_forall in H. auto. Qed.
Definition endsb (p s : string) : bool := ends_with p s.
Lemma suffix_cmp a b x y : a ++ x = b ++ y -> x = y \/ (exists c s, y = String c s ++ x) \/ (exists c s, x = String c s ++ y).
Proof.
  revert b. induction a as [|c a IH]; intros [|d b]; cbn; intros H; auto.
  - right. right. exists d, b. auto.
  - right. left. exists c, a. auto.
  - injection H as <- H. eauto.
Qed.
Lemma ends_app s x : ends_with x (s ++ x) = true.
Proof.
  induction s as [|c s IH]; cbn [append].
  - destruct x; [reflexivity|]. cbn [ends_with]. now rewrite String.eqb_refl.
  - cbn [ends_with]. rewrite IH. now rewrite orb_true_r.
Qed.
(** no word of a list ends with another one of another list, preceded by an underscore *)
Definition no_ends (l m : list string) : bool := forallb (fun x => forallb (fun y => negb (ends_with ("_" ++ y) x)) m) l.
Lemma no_ends_use l m x y s : no_ends l m = true -> In x l -> In y m -> x = s ++ "_" ++ y -> False.
Proof.
  intros N I J E. unfold no_ends in N. rewrite forallb_forall in N. specialize (N _ I). rewrite forallb_forall in N. specialize (N _ J). subst x. now rewrite ends_app in N.
Qed.
Lemma dash_cmp n n' q q' : In q dash_q -> In q' dash_q -> n ++ "_" ++ q = n' ++ "_" ++ q' -> n = n' /\ q = q'.
Proof.
  intros I I' E. destruct (suffix_cmp _ _ _ _ E) as [H|[(c & s & H)|(c & s & H)]].
  - cbn in H. injection H as ->. split; auto. now apply app_inj_r in E.
  - exfalso. cbn in H. injection H as <- H. eapply (no_ends_use dash_q dash_q q' q s); auto.
  - exfalso. cbn in H. injection H as <- H. eapply (no_ends_use dash_q dash_q q q' s); auto.
Qed.
Lemma dash_form n q t : n ++ "_" ++ q ++ "_" ++ show t = (n ++ "_" ++ q) ++ String "_" (show t).
Proof. rewrite !app_ass. reflexivity. Qed.
Lemma render_inj k k' : wf k -> wf k' -> render k = render k' -> k = k'.
Proof.
  assert (forall t, mem "_" (show t) = false) as U by (intros t; apply mem_show; reflexivity).
  assert (forall t, mem "," (show t) = false) as C by (intros t; apply mem_show; reflexivity).
  assert (forall q, In q site_q -> mem "," q = false) as SQ. { intros q I. pose proof (in_check (fun q => negb (mem "," q)) q _ I eq_refl) as H. now apply negb_true_iff in H. }
  assert (forall q, In q dash_q -> mem "," q = false) as DQ. { intros q I. pose proof (in_check (fun q => negb (mem "," q)) q _ I eq_refl) as H. now apply negb_true_iff in H. }
  assert (forall q, In q tag_q -> mem "," q = false) as TQ. { intros q I. pose proof (in_check (fun q => negb (mem "," q)) q _ I eq_refl) as H. now apply negb_true_iff in H. }
  assert (forall k, wf k -> (mem "," (render k) = match k with KTag _ _ _ _ => true | _ => false end)) as M.
  { intros [q t|n q t|q t n r]; cbn [wf render]; rewrite !mem_app; [intros H; rewrite (SQ q), C by exact H; reflexivity|intros [H H2]; rewrite H2, (DQ q), C by exact H; reflexivity|].
    intros _. cbn. now rewrite orb_true_r. }
  intros W W' E. pose proof (M _ W) as X. pose proof (M _ W') as X'. rewrite E, X' in X. clear X' M.
  destruct k as [q t|n q t|q t n r], k' as [q' t'|n' q' t'|q' t' n' r']; try discriminate; cbn [render wf] in *.
  - apply split_last in E; auto. destruct E as [-> E]. apply show_inj in E. now subst.
  - exfalso. rewrite dash_form in E. apply (split_last "_" (show t) (show t') q) in E; auto. destruct E as [E _].
    eapply (no_ends_use site_q dash_q q q'); eauto; tauto.
  - exfalso. rewrite dash_form in E. symmetry in E. apply (split_last "_" (show t') (show t) q') in E; auto. destruct E as [E _].
    eapply (no_ends_use site_q dash_q q' q); eauto; tauto.
  - rewrite !dash_form in E. apply split_last in E; auto. destruct E as [E T]. apply show_inj in T. subst t'.
    destruct W as [W _], W' as [W' _]. destruct (dash_cmp _ _ _ _ W W' E) as [-> ->]. reflexivity.
  - destruct W as (W1 & W2 & W3), W' as (W1' & W2' & W3'). cbn in E. apply split_first in E; auto. destruct E as [-> E]. injection E as E. apply split_first in E; auto. destruct E as [T E]. apply show_inj in T. subst t'.
    injection E as E.
    destruct W3 as [->|(s & ->)], W3' as [->|(s' & ->)].
    + rewrite !app_nil_str in E. now subst.
    + rewrite app_nil_str in E. subst n. now rewrite mem_mid in W2.
    + rewrite app_nil_str in E. subst n'. now rewrite mem_mid in W2'.
    + apply split_first in E; auto. destruct E as [-> ->]. reflexivity.
Qed.

(** ** The keys of a site *)
Lemma some_inj {A} (x y : A) : Some x = Some y -> x = y.
Proof. congruence. Qed.
Lemma nodup_app {A} (l m : list A) : NoDup (l ++ m)%list <-> NoDup l /\ NoDup m /\ (forall x, In x l -> In x m -> False).
Proof.
  induction l as [|a l IH]; cbn.
  - split; [intros H; splits; auto; constructor|tauto].
  - split.
    + intros H. inversion H as [|? ? N ND]; subst. apply IH in ND. destruct ND as (N1 & N2 & N3). rewrite in_app_iff in N. splits; auto; [constructor; tauto|]. intros x [<-|I] J; [tauto|eauto].
    + intros (N1 & N2 & N3). inversion N1; subst. constructor; [|apply IH; splits; auto; intros x I J; apply (N3 x); auto]. rewrite in_app_iff. intros [I|I]; [auto|apply (N3 a); auto].
Qed.
Lemma nodup_flat {A B} (f : A -> list B) l : NoDup l -> (forall x, In x l -> NoDup (f x)) -> (forall x y z, In x l -> In y l -> In z (f x) -> In z (f y) -> x = y) -> NoDup (flat_map f l).
Proof.
  induction 1 as [|x l N ND IH]; intros H1 H2; cbn; [constructor|]. apply nodup_app. splits.
  - apply H1. now left.
  - apply IH; [intros; apply H1; now right|]. intros a b z Ia Ib. apply H2; now right.
  - intros z I J. apply in_flat_map in J. destruct J as (y & J1 & J2). assert (x = y) by (eapply H2; eauto; [now left|now right]). now subst.
Qed.
Lemma nodup_map_on {A B} (f : A -> B) l : NoDup l -> (forall x y, In x l -> In y l -> f x = f y -> x = y) -> NoDup (map f l).
Proof.
  induction 1 as [|x l N ND IH]; intros H; cbn; constructor.
  - intros I. apply in_map_iff in I. destruct I as (y & E & I). apply N. rewrite <- (H y x); auto; [now right|now left].
  - apply IH. intros a b Ia Ib. apply H; now right.
Qed.
Definition dash_keys (n : string) (qs : list string) (t : nat) : list key := map (fun q => KDash (sanitize n) q t) qs.
Definition tag_keys (qs : list string) (t : nat) (n rest : string) : list key := map (fun q => KTag q t (sanitize n) (sanitize rest)) qs.
Definition clean (l : list string) : bool := forallb (fun q => String.eqb (sanitize q) q) l.
Lemma dash_render n qs t : clean qs = true -> map sanitize (dashed n qs t) = map render (dash_keys n qs t).
Proof.
  intros C. unfold dashed, dash_keys. rewrite !map_map. apply map_ext_in. intros q I. unfold clean in C. rewrite forallb_forall in C. apply C in I. apply String.eqb_eq in I.
  cbn [render]. rewrite !sanitize_app, sanitize_show, I. reflexivity.
Qed.
Lemma tag_render qs t n rest : clean qs = true -> map sanitize (tagged qs t n rest) = map render (tag_keys qs t n rest).
Proof.
  intros C. unfold tagged, tag_keys. rewrite !map_map. apply map_ext_in. intros q I. unfold clean in C. rewrite forallb_forall in C. apply C in I. apply String.eqb_eq in I.
  cbn [render]. rewrite !sanitize_app, sanitize_show, I. reflexivity.
Qed.
Definition event_rest (ec : charge_event_cfg) : string := ",charge_event:" ++ ce_name ec.
Definition pair_rest (e : nat) (cc : charger_cfg) (spill : bool) : string := ",charge-event:" ++ show e ++ ",charger:" ++ cg_name cc ++ ",is_spill:" ++ (if spill then "True" else "False").
Definition ev_keys (c : evs_cfg) (t : nat) : list key :=
  (flat_map (fun ee : nat * charge_event_cfg => tag_keys ["initial_soc_mwh"; "final_soc_mwh"] t (ev_name c) (event_rest (snd ee))
     ++ flat_map (fun cc => tag_keys (pair_quantities false) t (ev_name c) (pair_rest (fst ee) cc false)) (ev_chargers c)) (enumerate (ev_event_cfgs c))
   ++ flat_map (fun ee : nat * charge_event_cfg => flat_map (fun cc => tag_keys (pair_quantities true) t (ev_name c) (pair_rest (fst ee) cc true)) (ev_spill_chargers c)) (enumerate (ev_event_cfgs c)))%list.
Definition asset_keys (a : asset) (t : nat) : list key :=
  match a with
  | ABattery c => dash_keys (b_name c) ["electric_charge_mwh"; "electric_discharge_mwh"; "electric_charge_binary"; "electric_discharge_binary"; "electric_loss_mwh"; "electric_initial_charge_mwh"; "electric_final_charge_mwh"] t
  | ABoiler c => dash_keys (bo_name c) ["high_temperature_generation_mwh"; "binary_mwh"; "gas_consumption_mwh"] t
  | ACHP c => dash_keys (ch_name c) ["electric_generation_mwh"; "binary_mwh"; "gas_consumption_mwh"; "high_temperature_generation_mwh"; "low_temperature_generation_mwh"] t
  | AEVs c => ev_keys c t
  | AHeatPump c => tag_keys ["electric_load_mwh"; "electric_load_binary"; "low_temperature_load_mwh"; "high_temperature_generation_mwh"] t (hp_name c) ""
  | ARenewable c => tag_keys ["electric_generation_mwh"] t (rg_name c) ""
  | ASpill n => dash_keys n ["electric_generation_mwh"; "high_temperature_generation_mwh"; "electric_load_mwh"; "low_temperature_load_mwh"] t
  | AValve n => dash_keys n ["high_temperature_load_mwh"; "low_temperature_generation_mwh"] t
  end.
Definition site_keys (t : nat) : list key := map (fun q => KSite q t) site_q.
Definition base_keys (assets : list asset) (n : nat) : list key := flat_map (fun t => site_keys t ++ flat_map (fun a => asset_keys a t) assets)%list (seq 0 n).
Lemma flat_render {A} (f : A -> list string) (g : A -> list key) l : (forall x, map sanitize (f x) = map render (g x)) -> map sanitize (flat_map f l) = map render (flat_map g l).
Proof. intros H. induction l as [|x l IH]; cbn; auto. now rewrite !map_app, H, IH. Qed.
Lemma asset_render a t : map sanitize (asset_columns a t) = map render (asset_keys a t).
Proof.
  destruct a; cbn [asset_columns asset_keys]; try (apply dash_render; reflexivity); try (apply tag_render; reflexivity).
  unfold ev_keys. rewrite !map_app. f_equal.
  - apply flat_render. intros ee. rewrite !map_app. f_equal; [apply tag_render; reflexivity|]. apply flat_render. intros cc. apply tag_render. reflexivity.
  - apply flat_render. intros ee. apply flat_render. intros cc. apply tag_render. reflexivity.
Qed.
Lemma site_render t : map sanitize (site_columns t) = map render (site_keys t).
Proof. unfold site_columns, site_keys, site_q. cbn [map render]. rewrite !sanitize_app, sanitize_show. reflexivity. Qed.
Lemma base_render assets n : map sanitize (base_columns assets n) = map render (base_keys assets n).
Proof. unfold base_columns, base_keys. apply flat_render. intros t. rewrite !map_app, site_render. f_equal. apply flat_render. intros a. apply asset_render. Qed.

Definition key_time (k : key) : nat := match k with KSite _ t | KDash _ _ t | KTag _ t _ _ => t end.
Definition key_name (k : key) : option string := match k with KSite _ _ => None | KDash n _ _ | KTag _ _ n _ => Some n end.
Definition key_rest (k : key) : option string := match k with KTag _ _ _ r => Some r | _ => None end.
Definition key_q (k : key) : string := match k with KSite q _ | KDash _ q _ | KTag q _ _ _ => q end.
Lemma dash_key n qs t k : In k (dash_keys n qs t) -> key_time k = t /\ key_name k = Some (sanitize n).
Proof. unfold dash_keys. intros I. apply in_map_iff in I. destruct I as (q & <- & _). auto. Qed.
Lemma tag_key n qs t r k : In k (tag_keys qs t n r) -> key_time k = t /\ key_name k = Some (sanitize n) /\ key_rest k = Some (sanitize r) /\ In (key_q k) qs.
Proof. unfold tag_keys. intros I. apply in_map_iff in I. destruct I as (q & <- & J). auto. Qed.
Lemma ev_key c t k : In k (ev_keys c t) -> exists qs r, In k (tag_keys qs t (ev_name c) r) /\ incl qs tag_q /\ exists s, sanitize r = String "," s.
Proof.
  unfold ev_keys. rewrite in_app_iff, !in_flat_map. assert (forall b, incl (pair_quantities b) tag_q) as P. { intros [|] q J; cbn in J |- *; tauto. }
  intros [(ee & _ & I)|(ee & _ & I)].
  - apply in_app_iff in I. destruct I as [I|I]; [do 2 eexists; splits; [exact I| |eexists; reflexivity]; intros q J; cbn in J |- *; tauto|].
    apply in_flat_map in I. destruct I as (cc & _ & I). do 2 eexists. splits; [exact I|apply P|eexists; reflexivity].
  - apply in_flat_map in I. destruct I as (cc & _ & I). do 2 eexists. splits; [exact I|apply P|eexists; reflexivity].
Qed.
Lemma asset_key a t k : In k (asset_keys a t) -> key_time k = t /\ key_name k = Some (sanitize (asset_name a)).
Proof.
  destruct a; cbn [asset_keys asset_name]; try apply dash_key; try (intros I; apply tag_key in I; tauto).
  intros I. destruct (ev_key _ _ _ I) as (qs & r & J & _). apply tag_key in J. tauto.
Qed.
Lemma dash_nodup n qs t : nodup_str qs = true -> NoDup (dash_keys n qs t).
Proof. intros H. apply nodup_str_iff in H. apply nodup_map_on; auto. intros x y _ _ E. now injection E. Qed.
Lemma tag_nodup n qs t r : nodup_str qs = true -> NoDup (tag_keys qs t n r).
Proof. intros H. apply nodup_str_iff in H. apply nodup_map_on; auto. intros x y _ _ E. now injection E. Qed.
Lemma pair_rest_inj e e' cc cc' sp : sanitize (pair_rest e cc sp) = sanitize (pair_rest e' cc' sp) -> e = e' /\ sanitize (cg_name cc) = sanitize (cg_name cc').
Proof.
  unfold pair_rest. rewrite !sanitize_app, !sanitize_show. intros E. apply app_inj_l in E.
  assert (forall t, mem "," (show t) = false) as C by (intros t; apply mem_show; reflexivity).
  cbn in E. apply split_first in E; auto. destruct E as [T E]. apply show_inj in T. split; auto. injection E as E. apply app_inj_r in E. exact E.
Qed.
Lemma pair_rest_spill e e' cc cc' : sanitize (pair_rest e cc false) = sanitize (pair_rest e' cc' true) -> False.
Proof.
  unfold pair_rest. rewrite !sanitize_app, !sanitize_show. intros E. rewrite <- !app_ass in E.
  assert (forall (a b : string), a ++ sanitize "False" = b ++ sanitize "True" -> False) as H.
  { intros a b X. change (sanitize "False") with ("Fal" ++ "se") in X. change (sanitize "True") with ("Tr" ++ "ue") in X. rewrite <- !app_ass in X.
    destruct (suffix_cmp _ _ _ _ X) as [Y|[(c & s & Y)|(c & s & Y)]]; [discriminate| |]; apply (f_equal String.length) in Y;
      assert (forall u v, String.length (u ++ v) = (String.length u + String.length v)%nat) as LN by (induction u; cbn; congruence); rewrite LN in Y; cbn in Y; lia. }
  eapply H. exact E.
Qed.
Lemma enum_in {A} (l : list A) n k x : In (k, x) (enum_from n l) -> exists j, k = (n + j)%nat /\ nth_error l j = Some x.
Proof.
  revert n. induction l as [|y l IH]; intros n; cbn; [tauto|]. intros [E|I]; [injection E as <- <-; exists 0%nat; split; [lia|reflexivity]|].
  destruct (IH _ I) as (j & -> & E). exists (S j). split; [lia|exact E].
Qed.
Lemma enum_nodup {A} (l : list A) : NoDup (enumerate l).
Proof.
  unfold enumerate. generalize 0%nat as n. induction l as [|x l IH]; intros n; cbn; constructor; auto. intros I. apply enum_in in I. destruct I as (j & E & _). lia.
Qed.
Lemma ev_nodup c t : NoDup (map (fun cc => sanitize (cg_name cc)) (ev_chargers c)) -> NoDup (map (fun cc => sanitize (cg_name cc)) (ev_spill_chargers c)) ->
  NoDup (map (fun ec => sanitize (ce_name ec)) (ev_event_cfgs c)) -> NoDup (ev_keys c t).
Proof.
  intros N1 N2 N3.
  assert (forall (l : list charger_cfg) cc cc', NoDup (map (fun cc => sanitize (cg_name cc)) l) -> In cc l -> In cc' l -> sanitize (cg_name cc) = sanitize (cg_name cc') -> cc = cc') as CI.
  { clear. induction l as [|x l IH]; cbn; intros cc cc' N; [intros []|]; intros [<-|I] [<-|J] E; auto; inversion N; subst; auto; exfalso; apply H1; [rewrite E|rewrite <- E]; now apply (in_map (fun cc => sanitize (cg_name cc))). }
  assert (forall (ee ff : nat * charge_event_cfg), In ee (enumerate (ev_event_cfgs c)) -> In ff (enumerate (ev_event_cfgs c)) -> fst ee = fst ff \/ sanitize (ce_name (snd ee)) = sanitize (ce_name (snd ff)) -> ee = ff) as EI.
  { intros [i x] [j y] I J H. apply enum_in in I, J. destruct I as (a & -> & I), J as (b & -> & J). cbn [fst snd] in H. assert (a = b) as ->.
    - destruct H as [H|H]; [lia|]. apply (map_nth_error (fun ec => sanitize (ce_name ec))) in I, J. rewrite <- H in J. eapply NoDup_nth_error; [exact N3| |congruence]. apply nth_error_Some. congruence.
    - congruence. }
  assert (forall (l : list charger_cfg) sp ee, NoDup (map (fun cc => sanitize (cg_name cc)) l) -> NoDup (flat_map (fun cc => tag_keys (pair_quantities sp) t (ev_name c) (pair_rest ee cc sp)) l)) as PN.
  { intros l sp ee N. apply nodup_flat; [eapply NoDup_map_inv; exact N|intros cc _; apply tag_nodup; destruct sp; reflexivity|].
    intros x y z Ix Iy Jx Jy. apply tag_key in Jx, Jy. destruct Jx as (_ & _ & R1 & _), Jy as (_ & _ & R2 & _). rewrite R1 in R2. apply some_inj in R2. apply pair_rest_inj in R2. eapply CI; eauto; tauto. }
  unfold ev_keys. apply nodup_app. splits.
  - apply nodup_flat; [apply enum_nodup| |].
    + intros ee _. apply nodup_app. splits; [apply tag_nodup; reflexivity|now apply PN|]. intros z I J. apply in_flat_map in J. destruct J as (cc & _ & J). apply tag_key in I, J.
      destruct I as (_ & _ & _ & I), J as (_ & _ & _ & J). cbn in I, J. destruct I as [I|[I|[]]]; rewrite <- I in J; repeat (destruct J as [J|J]; [discriminate|]); contradiction.
    + intros ee ff z Ie If Jz Jw. apply (EI ee ff Ie If). apply in_app_iff in Jz, Jw. rewrite !in_flat_map in Jz, Jw.
      assert (forall x : nat * charge_event_cfg, In z (tag_keys ["initial_soc_mwh"; "final_soc_mwh"] t (ev_name c) (event_rest (snd x))) -> forall (y : nat * charge_event_cfg) cc, In z (tag_keys (pair_quantities false) t (ev_name c) (pair_rest (fst y) cc false)) -> False) as X.
      { intros x I y cc J. apply tag_key in I, J. destruct I as (_ & _ & _ & I), J as (_ & _ & _ & J). cbn in I, J. destruct I as [I|[I|[]]]; rewrite <- I in J; repeat (destruct J as [J|J]; [discriminate|]); contradiction. }
      destruct Jz as [Jz|(cc & I1 & Jz)], Jw as [Jw|(cc' & I2 & Jw)].
      * apply tag_key in Jz, Jw. destruct Jz as (_ & _ & R1 & _), Jw as (_ & _ & R2 & _). rewrite R1 in R2. apply some_inj in R2. unfold event_rest in R2. rewrite !sanitize_app in R2. apply app_inj_l in R2. auto.
      * exfalso. eapply X; eauto.
      * exfalso. eapply X; eauto.
      * apply tag_key in Jz, Jw. destruct Jz as (_ & _ & R1 & _), Jw as (_ & _ & R2 & _). rewrite R1 in R2. apply some_inj in R2. apply pair_rest_inj in R2. tauto.
  - apply nodup_flat; [apply enum_nodup|intros ee _; now apply PN|]. intros ee ff z Ie If Jz Jw. apply (EI ee ff Ie If). rewrite !in_flat_map in Jz, Jw. destruct Jz as (cc & I1 & Jz), Jw as (cc' & I2 & Jw).
    apply tag_key in Jz, Jw. destruct Jz as (_ & _ & R1 & _), Jw as (_ & _ & R2 & _). rewrite R1 in R2. apply some_inj in R2. apply pair_rest_inj in R2. tauto.
  - intros z I J. rewrite !in_flat_map in I, J. destruct J as (ff & _ & J). apply in_flat_map in J. destruct J as (cc' & _ & J). destruct I as (ee & _ & I). apply in_app_iff in I. apply tag_key in J. destruct J as (_ & _ & R2 & Q2).
    destruct I as [I|I].
    + apply tag_key in I. destruct I as (_ & _ & _ & I). cbn in I, Q2. destruct I as [I|[I|[]]]; rewrite <- I in Q2; repeat (destruct Q2 as [Q2|Q2]; [discriminate|]); contradiction.
    + apply in_flat_map in I. destruct I as (cc & _ & I). apply tag_key in I. destruct I as (_ & _ & R1 & _). rewrite R1 in R2. apply some_inj in R2. now apply pair_rest_spill in R2.
Qed.
Definition unnamed (s : string) : Prop := mem "," s = false /\ mem "=" s = false.
Lemma unmarked_clean n : unmarked n -> unnamed (sanitize n).
Proof. intros [A B]. rewrite mem_contains in A, B. split; rewrite mem_sanitize; auto. Qed.
Definition marked_ok (k : key) : Prop := match k with KDash n _ _ => mem "=" n = false | _ => True end.
Lemma dash_wf n qs t k : unmarked n -> forallb (fun q => existsb (String.eqb q) dash_q) qs = true -> In k (dash_keys n qs t) -> wf k /\ marked_ok k.
Proof.
  intros U C I. apply unmarked_clean in U. destruct U as [U1 U2]. unfold dash_keys in I. apply in_map_iff in I. destruct I as (q & <- & I). rewrite forallb_forall in C. apply C in I.
  apply existsb_exists in I. destruct I as (q' & I & E). apply String.eqb_eq in E. subst q'. cbn [wf marked_ok]. auto.
Qed.
Lemma tag_wf n qs t r k : unmarked n -> incl qs tag_q -> r = "" \/ (exists s, sanitize r = String "," s) -> In k (tag_keys qs t n r) -> wf k /\ marked_ok k.
Proof.
  intros U C R I. apply unmarked_clean in U. destruct U as [U1 U2]. unfold tag_keys in I. apply in_map_iff in I. destruct I as (q & <- & I). cbn [wf marked_ok]. splits; auto.
  destruct R as [->|R]; auto.
Qed.
Lemma incl_check qs : forallb (fun q => existsb (String.eqb q) tag_q) qs = true -> incl qs tag_q.
Proof. intros C q I. rewrite forallb_forall in C. apply C in I. apply existsb_exists in I. destruct I as (q' & I & E). apply String.eqb_eq in E. now subst q'. Qed.
Lemma asset_wf a t k : unmarked (asset_name a) -> In k (asset_keys a t) -> wf k /\ marked_ok k.
Proof.
  intros U I. destruct a; cbn [asset_keys asset_name] in *; try (refine (dash_wf _ _ _ _ U _ I); reflexivity); try (refine (tag_wf _ _ _ _ _ U _ _ I); [apply incl_check; reflexivity|left; reflexivity]).
  destruct (ev_key _ _ _ I) as (qs & r & J & C & R). eapply tag_wf; eauto.
Qed.
Lemma base_wf assets n k : separate assets -> In k (base_keys assets n) -> wf k /\ marked_ok k.
Proof.
  intros S I. unfold base_keys in I. apply in_flat_map in I. destruct I as (t & _ & I). apply in_app_iff in I. destruct I as [I|I].
  - unfold site_keys in I. apply in_map_iff in I. destruct I as (q & <- & I). split; [exact I|exact Logic.I].
  - apply in_flat_map in I. destruct I as (a & Ia & I). eapply asset_wf; [|exact I]. exact (proj1 (Forall_forall _ _) (sp_unmarked _ S) a Ia).
Qed.
Lemma asset_nodup assets a t : separate assets -> In a assets -> NoDup (asset_keys a t).
Proof.
  intros S I. destruct a; cbn [asset_keys]; try (apply dash_nodup; reflexivity); try (apply tag_nodup; reflexivity). destruct (sp_evs _ S _ I) as (N1 & N2 & N3). now apply ev_nodup.
Qed.
Lemma base_nodup assets n : separate assets -> NoDup (base_keys assets n).
Proof.
  intros S. unfold base_keys.
  assert (forall t k, In k (site_keys t ++ flat_map (fun a => asset_keys a t) assets)%list -> key_time k = t) as T.
  { intros t k I. apply in_app_iff in I. destruct I as [I|I].
    - unfold site_keys in I. apply in_map_iff in I. destruct I as (q & <- & I). reflexivity.
    - apply in_flat_map in I. destruct I as (a & _ & I). apply asset_key in I. tauto. }
  apply nodup_flat; [apply seq_NoDup| |intros x y z _ _ I J; apply T in I, J; congruence].
  intros t _. apply nodup_app. splits.
  - unfold site_keys. apply nodup_map_on; [apply nodup_str_iff; reflexivity|]. intros x y _ _ E. now injection E.
  - assert (NoDup assets) as ND by (eapply NoDup_map_inv; exact (sp_names _ S)). apply nodup_flat; auto; [intros a I; eapply asset_nodup; eauto|].
    intros x y z Ix Iy Jx Jy. apply asset_key in Jx, Jy. destruct Jx as [_ N1], Jy as [_ N2]. rewrite N1 in N2. apply some_inj in N2.
    pose proof (sp_names _ S) as N. clear -Ix Iy N N2. induction assets as [|a l IH]; [destruct Ix|]. cbn in N. inversion N as [|? ? X Y]; subst. destruct Ix as [<-|Ix], Iy as [<-|Iy]; auto.
    + exfalso. apply X. rewrite N2. now apply (in_map (fun a => sanitize (asset_name a))).
    + exfalso. apply X. rewrite <- N2. now apply (in_map (fun a => sanitize (asset_name a))).
  - intros z I J. unfold site_keys in I. apply in_map_iff in I. destruct I as (q & <- & _). apply in_flat_map in J. destruct J as (a & _ & J). apply asset_key in J. destruct J as [_ J]. discriminate.
Qed.
Theorem base_distinct assets n : separate assets -> NoDup (map sanitize (base_columns assets n)).
Proof.
  intros S. rewrite base_render. apply nodup_map_on; [now apply base_nodup|]. intros k k' I J E. apply (base_wf _ _ _ S) in I, J. apply render_inj; tauto.
Qed.

(** ** Function terms *)
Lemma last_char a b c d : a ++ String c "" = b ++ String d "" -> c = d.
Proof.
  revert b. induction a as [|x a IH]; intros [|y b]; cbn; intros H; injection H; intros; subst; auto.
  - destruct b; discriminate.
  - destruct a; discriminate.
  - eauto.
Qed.
Lemma nodup_flat_by {A B C} (f : A -> list B) (g : A -> list C) l : NoDup (flat_map g l) -> (forall x, In x l -> NoDup (f x)) ->
  (forall x y z, In x l -> In y l -> In z (f x) -> In z (f y) -> exists c, In c (g x) /\ In c (g y)) -> NoDup (flat_map f l).
Proof.
  induction l as [|x l IH]; intros N H1 H2; cbn in *; [constructor|]. apply nodup_app in N. destruct N as (N1 & N2 & N3). apply nodup_app. splits; [apply H1; now left|apply IH; auto; intros; eapply H2; eauto|].
  intros z I J. apply in_flat_map in J. destruct J as (y & J1 & J2). destruct (H2 x y z (or_introl eq_refl) (or_intror J1) I J2) as (c & C1 & C2). apply (N3 c C1). apply in_flat_map. eauto.
Qed.
Definition two_rest (w : two_term) : string := sanitize (repr_tn (w_a w) ++ "-term.b=" ++ repr_tn (w_b w)).
Lemma two_form w t : two_added w = true -> sanitize (two_label w t) = w_function w ++ "_i=" ++ show t ++ "_term.a=" ++ two_rest w.
Proof.
  intros A. unfold two_label, two_rest. rewrite !sanitize_app, sanitize_show. f_equal. unfold two_added, one_of in A. cbn in A. rewrite orb_false_r in A. apply orb_true_iff in A. destruct A as [A|A]; apply String.eqb_eq in A; rewrite A; reflexivity.
Qed.
Lemma two_function w : two_added w = true -> mem "=" (w_function w) = false /\ exists s, w_function w = String "m" s.
Proof. intros A. unfold two_added, one_of in A. cbn in A. rewrite orb_false_r in A. apply orb_true_iff in A. destruct A as [A|A]; apply String.eqb_eq in A; rewrite A; split; eauto. Qed.
Lemma many_function m : many_added m = true -> exists s, m_function m = String "m" s.
Proof. intros A. unfold many_added, one_of in A. cbn in A. rewrite orb_false_r in A. apply orb_true_iff in A. destruct A as [A|A]; apply String.eqb_eq in A; rewrite A; eauto. Qed.
Lemma two_col n k z : In z (map sanitize (two_columns n k)) -> exists w t, k = TTwo w /\ two_added w = true /\ In t (seq 0 n) /\
  (z = sanitize (two_label w t) ++ "_continuous" \/ z = sanitize (two_label w t) ++ "_binary").
Proof.
  destruct k as [t|w|m]; cbn [two_columns map]; try (intros []). destruct (two_added w) eqn:A; [|intros []]. intros I. apply in_map_iff in I. destruct I as (x & <- & I).
  apply in_flat_map in I. destruct I as (t & It & I). exists w, t. splits; auto. destruct I as [<-|[<-|[]]]; rewrite sanitize_app; auto.
Qed.
Lemma many_col ops k z : In z (map sanitize (many_columns ops k)) -> exists m, k = TMany m /\ many_added m = true /\
  (z = sanitize (many_label m) ++ "_continuous" \/ exists j, z = sanitize (many_label m) ++ "_binary_" ++ show j).
Proof.
  destruct k as [t|w|m]; cbn [many_columns map]; try (intros []). destruct (many_added m) eqn:A; [|intros []]. intros I. exists m. splits; auto. cbn [map] in I. destruct I as [<-|I]; [left; now rewrite sanitize_app|].
  right. apply in_map_iff in I. destruct I as (x & <- & I). apply in_map_iff in I. destruct I as (j & <- & I). exists j. now rewrite !sanitize_app, sanitize_show.
Qed.
Lemma two_same w w' t t' s s' : two_added w = true -> two_added w' = true -> sanitize (two_label w t) ++ s = sanitize (two_label w' t') ++ s' -> w_function w = w_function w' /\ t = t' /\ two_rest w ++ s = two_rest w' ++ s'.
Proof.
  intros A A' E. rewrite !two_form in E by auto. rewrite !app_ass in E.
  assert (forall f x, f ++ "_i=" ++ x = (f ++ "_i") ++ String "=" x) as F by (intros f x; now rewrite app_ass). rewrite !F in E.
  apply split_first in E; [|rewrite mem_app; rewrite (proj1 (two_function w A)); reflexivity|rewrite mem_app; rewrite (proj1 (two_function w' A')); reflexivity].
  destruct E as [E1 E2]. apply app_inj_r in E1. cbn in E2. apply split_first in E2; [|apply mem_show; reflexivity|apply mem_show; reflexivity]. destruct E2 as [T E2]. apply show_inj in T. splits; auto.
  injection E2 as E2. exact E2.
Qed.
Lemma cont_bin a b : a ++ "_continuous" = b ++ "_binary" -> False.
Proof.
  change "_continuous" with ("_continuou" ++ String "s" ""). change "_binary" with ("_binar" ++ String "y" ""). rewrite <- !app_ass. intros E. apply last_char in E. discriminate.
Qed.
Lemma cont_num a b j : a ++ "_continuous" = b ++ "_binary_" ++ show j -> False.
Proof.
  intros E. assert (forall x, b ++ "_binary_" ++ x = (b ++ "_binary") ++ String "_" x) as F by (intros x; now rewrite app_ass). rewrite F in E. change (a ++ "_continuous") with (a ++ String "_" "continuous") in E.
  apply split_last in E; [|reflexivity|apply mem_show; reflexivity]. destruct E as [_ E]. pose proof (show_digits j) as D. rewrite <- E in D. discriminate.
Qed.
Lemma map_flat {A B C} (h : B -> C) (f : A -> list B) l : map h (flat_map f l) = flat_map (fun x => map h (f x)) l.
Proof. induction l as [|x l IH]; cbn; auto. now rewrite map_app, IH. Qed.
Theorem objective_distinct n ops obj : separate_terms obj -> NoDup (map sanitize (objective_columns n ops obj)).
Proof.
  destruct obj as [s|ks]; cbn [separate_terms objective_columns]; [intros; constructor|]. intros N. rewrite map_app, !map_flat. apply nodup_app. splits.
  - apply (nodup_flat_by _ term_label); auto.
    + intros k _. destruct k as [t|w|m]; cbn [two_columns map]; try constructor. destruct (two_added w) eqn:A; [|constructor]. rewrite map_flat. apply nodup_flat; [apply seq_NoDup| |].
      * intros t _. cbn [map]. rewrite !sanitize_app. constructor; [|repeat constructor; auto]. intros [E|[]]. symmetry in E. now apply cont_bin in E.
      * intros t t' z _ _ I J. cbn [map In] in I, J. rewrite !sanitize_app in I, J.
        assert (exists s s', sanitize (two_label w t) ++ s = sanitize (two_label w t') ++ s') as (s & s' & E).
        { destruct I as [I|[I|[]]], J as [J|[J|[]]]; rewrite <- J in I; eauto. }
        apply two_same in E; tauto.
    + intros k k' z Ik Ik' I J. apply two_col in I, J. destruct I as (w & t & -> & A & _ & I), J as (w' & t' & -> & A' & _ & J). cbn [term_label]. rewrite A, A'. exists (sanitize (two_label w 0)). split; [now left|left].
      assert (exists s, (s = "_continuous" \/ s = "_binary") /\ sanitize (two_label w t) ++ s = sanitize (two_label w' t') ++ s) as (s & _ & E).
      { destruct I as [->| ->], J as [J|J]; eauto; exfalso; [now apply cont_bin in J|symmetry in J; now apply cont_bin in J]. }
      apply two_same in E; auto. destruct E as (E1 & E2 & E3). apply app_inj_r in E3. rewrite !two_form by auto. now rewrite E1, E3.
  - apply (nodup_flat_by _ term_label); auto.
    + intros k _. destruct k as [t|w|m]; cbn [many_columns map]; try constructor. destruct (many_added m) eqn:A; [|constructor]. cbn [map]. constructor.
      * rewrite sanitize_app. intros I. apply in_map_iff in I. destruct I as (x & E & I). apply in_map_iff in I. destruct I as (j & <- & _). rewrite !sanitize_app, sanitize_show in E. symmetry in E. now apply cont_num in E.
      * rewrite map_map. apply nodup_map_on; [apply seq_NoDup|]. intros j j' _ _ E. rewrite !sanitize_app, !sanitize_show in E. apply app_inj_l, app_inj_l, show_inj in E. exact E.
    + intros k k' z Ik Ik' I J. apply many_col in I, J. destruct I as (m & -> & A & I), J as (m' & -> & A' & J). cbn [term_label]. rewrite A, A'. exists (sanitize (many_label m)). split; [now left|left].
      destruct I as [->|(j & ->)], J as [J|(j' & J)].
      * now apply app_inj_r in J.
      * exfalso. now apply cont_num in J.
      * exfalso. symmetry in J. now apply cont_num in J.
      * assert (forall b x, b ++ "_binary_" ++ x = (b ++ "_binary") ++ String "_" x) as F by (intros b x; now rewrite app_ass). rewrite !F in J.
        apply split_last in J; [|apply mem_show; reflexivity|apply mem_show; reflexivity]. destruct J as [J _]. now apply app_inj_r in J.
  - intros z I J. apply in_flat_map in I, J. destruct I as (k & _ & I), J as (k' & _ & J). apply two_col in I. apply many_col in J. destruct I as (w & t & _ & A & _ & I), J as (m & _ & A' & J).
    assert (exists s, z = w_function w ++ s) as (s & Z1). { rewrite two_form in I by auto. destruct I as [->| ->]; rewrite app_ass; eauto. }
    assert (exists s, z = sanitize (m_function m) ++ s) as (s' & Z2). { unfold many_label in J. rewrite !sanitize_app in J. destruct J as [->|(j & ->)]; rewrite app_ass; eauto. }
    unfold two_added, many_added, one_of in A, A'. cbn in A, A'. rewrite orb_false_r in A, A'. apply orb_true_iff in A, A'.
    destruct A as [A|A], A' as [A'|A']; apply String.eqb_eq in A, A'; rewrite A in Z1; rewrite A' in Z2; rewrite Z1 in Z2; discriminate.
Qed.
Lemma objective_col n ops obj z : In z (map sanitize (objective_columns n ops obj)) -> mem "=" z = true /\ exists s, z = String "m" s.
Proof.
  destruct obj as [s|ks]; cbn [objective_columns]; [intros []|]. rewrite map_app, !map_flat, in_app_iff, !in_flat_map. intros [(k & _ & I)|(k & _ & I)].
  - apply two_col in I. destruct I as (w & t & _ & A & _ & I). rewrite two_form in I by auto. destruct (two_function w A) as (_ & s & F). rewrite F in I. split.
    + destruct I as [->| ->]; rewrite !mem_app; cbn; rewrite ?orb_true_r; reflexivity.
    + destruct I as [->| ->]; cbn; eauto.
  - apply many_col in I. destruct I as (m & _ & A & I). destruct (many_function m A) as (s & F). unfold many_label in I. rewrite !sanitize_app, F in I. split.
    + destruct I as [->|(j & ->)]; rewrite !mem_app; cbn; rewrite ?orb_true_r; reflexivity.
    + destruct I as [->|(j & ->)]; cbn; eauto.
Qed.
Theorem columns_distinct assets n ops obj : separate assets -> separate_terms obj -> NoDup (map sanitize (base_columns assets n ++ objective_columns n ops obj)%list).
Proof.
  intros S T. rewrite map_app. apply nodup_app. splits; [now apply base_distinct|now apply objective_distinct|]. intros z I J. apply objective_col in J. destruct J as (E & s & ->).
  rewrite base_render in I. apply in_map_iff in I. destruct I as (k & K & I). apply (base_wf _ _ _ S) in I. destruct I as [W U].
  assert (forall q l r, In q l -> forallb (fun q => match q with String c _ => negb (Ascii.eqb c "m") | _ => false end) l = true -> q ++ r = String "m" s -> False) as X.
  { intros q l r Iq C H. rewrite forallb_forall in C. apply C in Iq. destruct q as [|c q]; [discriminate|]. cbn in H. injection H as -> _. discriminate. }
  destruct k as [q t|m q t|q t m r]; cbn [render wf marked_ok] in *.
  - eapply X; [exact W|reflexivity|exact K].
  - rewrite <- K in E. rewrite !mem_app, U in E. destruct W as [W _]. rewrite (mem_show "=" t eq_refl) in E.
    pose proof (in_check (fun q => negb (mem "=" q)) q _ W eq_refl) as Q. apply negb_true_iff in Q. rewrite Q in E. discriminate.
  - eapply X; [exact (proj1 W)|reflexivity|exact K].
Qed.
