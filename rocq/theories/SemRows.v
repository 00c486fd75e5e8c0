(** * SemRows: one row of the results table, in the order of extraction (proofs) *)
From Verif Require Import Base Pulp Params Optimizer Types Assets EVs Site Extract Emit Prim Spec SpecReport SpecRun Layout Rows Sem SemEv SemSite SemProg SemObj SemCells.
Open Scope Q_scope.

Definition kind_cells (d : dispatch) (t : nat) (k : kind) (a : asset) : list (string * option Q) :=
  if kind_eqb (kind_of_asset a) k then asset_cells d t a else [].
Definition main_cells (d : dispatch) (t : nat) (a : asset) : list (string * option Q) :=
  match a with AEVs c => ev_main_cells d t c | _ => [] end.
Definition spill_cells (d : dispatch) (t : nat) (a : asset) : list (string * option Q) :=
  match a with AEVs c => ev_spill_columns d t c | _ => [] end.
Definition asset_rows (assets : list asset) (d : dispatch) (t : nat) : list (string * option Q) :=
  let k kd := flat_map (kind_cells d t kd) assets in
  (k KSpill ++ k KBattery ++ k KCHP ++ k KBoiler ++ k KValve
   ++ (flat_map (main_cells d t) assets ++ flat_map (spill_cells d t) assets) ++ k KHeatPump ++ k KRenewable)%list.
Definition row_cells (c : site_cfg) (assets : list asset) (d : dispatch) (t : nat) : list (string * option Q) :=
  (site_cells c d t ++ asset_rows assets d t)%list.

Lemma py_index_nat_ok {A} (l : list A) t x : nth_error l t = Some x -> py_index l (Z.of_nat t) = Ok x.
Proof.
  intros E. assert (t < List.length l)%nat by (apply nth_error_Some; congruence). unfold py_index.
  assert (((0 <=? Z.of_nat t)%Z && (Z.of_nat t <? Z.of_nat (List.length l))%Z)%bool = true) as -> by (apply andb_true_iff; split; [apply Z.leb_le|apply Z.ltb_lt]; lia).
  rewrite Nat2Z.id, E. reflexivity.
Qed.

Section rows.
Context (vals : values) (s : assignment) (V : forall v x, vals v = Some x -> x = s (v_id v)).
Context (c : site_cfg) (assets : list asset) (fl : flags) (iv : interval_vars) (lo hi : nat) (cs : list constr) (P : program c assets fl iv lo hi cs).
Context (d : dispatch) (VO : vals_of d s iv) (PH : forall a t, In a assets -> (t < n_intervals c)%nat -> clip_ok d t a)
  (OC : forall row x v, In row iv -> In x row -> In v (must_vars x) -> vals v <> None).
Context (EVN : forall e, In (AEVs e) assets -> contains "evs" (ev_name e) = true).

Lemma kind_row t row k ys : nth_error iv t = Some row -> k <> KSite -> k <> KEv -> k <> KEvSpill ->
  extract_kind vals iv t k = Ok ys -> row_is ys (flat_map (kind_cells d t k) assets).
Proof.
  intros E N1 N2 N3 H. unfold extract_kind, filter_objective_variables in H. rewrite (py_index_nat_ok _ _ _ E) in H. cbn [rbind] in H.
  rewrite rbind_ok in H. destruct H as (rows & H & H'). injection H' as <-. rewrite matches_kind in H.
  pose proof (pr_shape _ _ _ _ _ _ _ P t row E) as (r & xss & ER & SR & F). pose proof (VO t row E) as VL.
  assert (forall x v, In x row -> In v (must_vars x) -> vals v <> None) as OC' by (intros; eapply OC; eauto; eapply nth_error_In; eauto).
  assert (t < n_intervals c)%nat as Ht by (rewrite <- (pr_len _ _ _ _ _ _ _ P); apply nth_error_Some; congruence).
  assert (forall a, In a assets -> clip_ok d t a) as AT by (intros; apply PH; auto).
  rewrite ER in VL, OC', H. cbn [filter] in H. unfold of_kind at 1 in H. cbn [kind_of] in H.
  destruct (kind_eqb KSite k) eqn:EK; [apply kind_eqb_iff in EK; congruence|]. clear EK.
  assert (Forall (oi_val d t s) (List.concat xss)) as VL' by (inversion VL; auto). clear VL.
  assert (forall x v, In x (List.concat xss) -> In v (must_vars x) -> vals v <> None) as OC'' by (intros; eapply OC'; eauto; now right). clear OC'.
  clear ER SR E PH Ht P EVN. revert rows H. induction F as [|a xs l l' Sh F IH]; intros rows H; cbn [List.concat filter] in H.
  - cbn in H. injection H as <-. constructor.
  - cbn [List.concat] in VL', OC''. rewrite Forall_app in VL'. destruct VL' as [VL1 VL2]. rewrite filter_app in H.
    apply rmap_ok in H. apply Forall2_app_inv_l in H. destruct H as (r1 & r2 & H1 & H2 & ->). rewrite concat_app. cbn [flat_map]. apply row_is_app.
    + unfold kind_cells. apply rmap_ok in H1. destruct a as [b|b|b|b|b|b|n|n].
      4:{ cbn [kind_of_asset]. destruct (kind_eqb KEv k) eqn:EK; [apply kind_eqb_iff in EK; congruence|]. cbn [asset_shape] in Sh. destruct Sh as (S0 & S1 & G & Sp & -> & _).
          unfold of_kind in H1. rewrite filter_app, (filter_kind_map OIEv _ KEv), (filter_kind_map OIEvSpill _ KEvSpill) in H1 by reflexivity. rewrite EK in H1.
          destruct (kind_eqb KEvSpill k) eqn:EK2; [apply kind_eqb_iff in EK2; congruence|]. cbn in H1. injection H1 as <-. constructor. }
      all: pose proof Sh as Sh2; cbn [asset_shape] in Sh; destruct Sh as (rr & -> & _); cbn [filter] in H1; unfold of_kind in H1; cbn [kind_of kind_of_asset] in *;
        match type of H1 with context [kind_eqb ?k1 ?k2] => destruct (kind_eqb k1 k2) end; cbn [rmap] in H1; [|injection H1 as <-; constructor];
        rewrite rbind_ok in H1; destruct H1 as (y & H1 & H1'); cbn [rbind] in H1'; injection H1' as <-; cbn [List.concat]; rewrite app_nil_r;
        eapply (plain_cells vals s V _ t (sc_freq c) fl); [| exact Sh2| exact VL1 | apply AT; now left | |now left|exact H1]; [reflexivity|]; intros v Iv; eapply OC''; [apply in_app_iff; left; now left|exact Iv].
    + apply IH; auto.
      * intros a' Ia. apply AT. now right.
      * intros x v Ix. apply OC''. apply in_app_iff. now right.
      * now apply rmap_ok.
Qed.

Lemma site_row t row ys : nth_error iv t = Some row -> extract_site vals (sc_idata c) iv t = Ok ys -> row_is ys (site_cells c d t).
Proof.
  intros E H. unfold extract_site, filter_objective_variables in H. rewrite (py_index_nat_ok _ _ _ E) in H. cbn [rbind] in H.
  pose proof (pr_shape _ _ _ _ _ _ _ P t row E) as (r & xss & ER & SR & F). pose proof (VO t row E) as VL.
  destruct (filter (matches (Some KSite) (Some "site"%string)) row) as [|x [|? ?]] eqn:EF; try discriminate; destruct x as [r'|?|?|?|?|?|?|?|?|?]; try discriminate.
  assert (In (OISite r') row) as I by (apply (filter_In (matches (Some KSite) (Some "site"%string))); rewrite EF; now left).
  rewrite Forall_forall in VL. specialize (VL _ I). cbn [oi_val] in VL. unfold vset in VL. destruct VL as [V1 V2].
  rewrite rbind_ok in H. destruct H as (data & H & H'). injection H' as <-. unfold site_cells.
  assert (forall v, In v (must_vars (OISite r')) -> vals v <> None) as OC' by (intros; eapply OC; eauto; eapply nth_error_In; eauto). cbn [must_vars] in OC'.
  constructor; [|constructor].
  - destruct (vals (tio_import r')) as [q1|] eqn:Q1; [|exfalso; eapply OC'; [|exact Q1]; cbn; auto]. apply cell_some. apply V in Q1. subst. rewrite V1. reflexivity.
  - destruct (vals (tio_export r')) as [q1|] eqn:Q1; [|exfalso; eapply OC'; [|exact Q1]; cbn; auto]. apply cell_some. apply V in Q1. subst. rewrite V2. reflexivity.
  - eapply rmap_row; [exact H|]. intros [n l] y _ K. cbn [fst snd] in *. rewrite rbind_ok in K. destruct K as (q & K & K'). injection K' as <-. apply nth_res_data in K. rewrite K. apply cell_some. reflexivity.
Qed.

Lemma flat_map_filter {A B} (p : A -> bool) (g : A -> list B) l : (forall x, In x l -> p x = false -> g x = []) -> flat_map g (filter p l) = flat_map g l.
Proof.
  induction l as [|x l IH]; intros H; [reflexivity|]. cbn [filter flat_map]. destruct (p x) eqn:E.
  - cbn [flat_map]. rewrite IH; auto. intros y I. apply H. now right.
  - rewrite (H x (or_introl eq_refl) E). apply IH. intros y I. apply H. now right.
Qed.
Lemma filter_map_name (p : string -> bool) (l : list asset) : filter p (map asset_name l) = map asset_name (filter (fun a => p (asset_name a)) l).
Proof. induction l; [reflexivity|]. cbn. destruct (p (asset_name a)); cbn; congruence. Qed.
Lemma rmap_map {A B C} (F : B -> res C) (g : A -> B) l : rmap F (map g l) = rmap (fun x => F (g x)) l.
Proof. induction l; [reflexivity|]. cbn [map rmap]. now rewrite IHl. Qed.
Lemma rmap_two {A B C} (F : A -> res B) (G : B -> res C) l ys zs : rmap F l = Ok ys -> rmap G ys = Ok zs -> rmap (fun x => let! y := F x in G y) l = Ok zs.
Proof.
  revert ys zs. induction l as [|x l IH]; intros ys zs H K; cbn [rmap] in *.
  - injection H as <-. exact K.
  - rewrite rbind_ok in H. destruct H as (y & H1 & H). rewrite rbind_ok in H. destruct H as (ws & H2 & H). injection H as <-. cbn [rmap] in K. rewrite H1. cbn [rbind].
    rewrite rbind_ok in K. destruct K as (z & K1 & K). rewrite rbind_ok in K. destruct K as (us & K2 & K). injection K as <-. rewrite K1. cbn [rbind]. rewrite (IH _ _ H2 K2). reflexivity.
Qed.

Lemma evs_row t row ys : nth_error iv t = Some row -> extract_evs vals (map asset_name assets) iv t = Ok ys ->
  row_is ys (flat_map (main_cells d t) assets ++ flat_map (spill_cells d t) assets)%list.
Proof.
  intros E H. unfold extract_evs in H.
  assert (iv <> []) as NI by (intros X; rewrite X in E; destruct t; discriminate).
  pose proof (pr_fine _ _ _ _ _ _ _ P NI) as FN. rewrite Forall_forall in FN. pose proof (VO t row E) as VL.
  pose proof (pr_names _ _ _ _ _ _ _ P) as ND.
  assert (forall a, In a assets -> exists xs, owns a t (sc_freq c) fl row xs) as OW by (intros a Ia; eapply row_owns; eauto; apply P).
  assert (forall x v, In x row -> In v (must_vars x) -> vals v <> None) as OC' by (intros; eapply OC; eauto; eapply nth_error_In; eauto).
  unfold filter_objective_variables at 1 in H. rewrite (py_index_nat_ok _ _ _ E) in H. cbn [rbind] in H.
  destruct (filter (matches (Some KEv) None) row) as [|x0 l0] eqn:EF.
  - injection H as <-.
    assert (forall e, ~ In (AEVs e) assets) as NE.
    { intros e Ie. destruct (OW _ Ie) as (xs & (S0 & S1 & G & Sp & SH) & IN & _). destruct (FN _ Ie) as (_ & NE & NC).
      destruct SH as (-> & _). assert (In (OIEv (G 0%nat 0%nat)) row) as I by (apply IN, in_app_iff; left; apply in_map, in_grid; exists 0%nat, 0%nat; auto).
      assert (In (OIEv (G 0%nat 0%nat)) []) as []. rewrite <- EF. apply filter_In. split; auto. }
    assert (flat_map (main_cells d t) assets = [] /\ flat_map (spill_cells d t) assets = []) as [-> ->]; [|constructor].
    clear -NE. induction assets as [|a l IH]; [auto|]. cbn [flat_map]. destruct IH as [-> ->]; [intros e I; apply (NE e); now right|].
    destruct a; cbn; auto. exfalso. eapply NE. now left.
  - clear EF x0 l0. rewrite filter_map_name in H. set (l := filter (fun a => contains "evs" (asset_name a)) assets) in *.
    rewrite rbind_ok in H. destruct H as (pkg & H1 & H). rewrite rbind_ok in H. destruct H as (l1 & H2 & H). rewrite rbind_ok in H. destruct H as (pkg2 & H3 & H). rewrite rbind_ok in H. destruct H as (l2 & H4 & H). injection H as <-.
    rewrite rmap_map in H1, H3. pose proof (rmap_two _ _ _ _ _ H1 H2) as K1. pose proof (rmap_two _ _ _ _ _ H3 H4) as K2.
    assert (forall a, In a l -> In a assets) as IL by (intros a I; apply filter_In in I; tauto).
    assert (forall g : asset -> list (string * option Q), (forall a, plain_asset a = true -> g a = []) -> flat_map g assets = flat_map g l) as FM.
    { intros g Hg. symmetry. apply flat_map_filter. intros a Ia Ea. destruct a; try (now apply Hg). cbn [asset_name] in Ea. rewrite (EVN _ Ia) in Ea. discriminate. }
    rewrite (FM (main_cells d t)), (FM (spill_cells d t)) by (intros []; cbn; auto; discriminate). clear FM.
    assert (forall a y b, In a l -> create_evs_array iv (Z.of_nat t) (asset_name a) b = Ok y -> exists e, a = AEVs e) as ISEV.
    { intros a y b I K. destruct (OW a (IL a I)) as (xs & SH & IN & FT). destruct a as [q|q|q|q|q|q|n|n]; eauto; exfalso;
      unfold create_evs_array, filter_objective_variables in K; rewrite (py_index_nat_ok _ _ _ E) in K; cbn [rbind] in K;
      destruct SH as (r & -> & _); destruct b; cbn [ev_wrap] in K; rewrite FT in K by discriminate; cbn in K; discriminate. }
    apply row_is_app.
    + eapply row_is_concat; [exact K1|]. intros a y Ia K. cbv beta in K. rewrite rbind_ok in K. destruct K as (arr & K & K').
      destruct (ISEV a arr false Ia K) as (e & ->). destruct (OW _ (IL _ Ia)) as (xs & (S0 & S1 & G & Sp & SH) & IN & FT).
      destruct (evs_filters _ _ _ _ _ _ _ _ _ _ SH FT) as [M0 _]. cbn [asset_name] in K.
      apply (create_main _ _ _ S0 S1 G Sp t (sc_freq c) fl xs) in K; [|unfold filter_objective_variables; rewrite (py_index_nat_ok _ _ _ E); cbn [rbind]; now rewrite M0|exact SH].
      cbn [main_cells]. eapply (ev_main_ok vals s V); eauto.
      * rewrite Forall_forall in *. auto.
      * intros ev He. destruct K as (_ & _ & NC & _). destruct (nth_error_lt _ _ He) as (ec & Ee). destruct (nth_error_lt _ _ NC) as (cc & Ek).
        destruct SH as (-> & _ & SE & _). destruct (SE _ _ _ _ Ee Ek) as (_ & _ & _ & _ & _ & _ & _ & _ & _ & Q4 & Q5).
        assert (In (OIEv (G ev 0%nat)) row) as I by (apply IN, in_app_iff; left; apply in_map, in_grid; eauto).
        split; apply (OC' _ _ I); cbn [must_vars]; rewrite Q4, Q5; cbn; auto.
    + eapply row_is_concat; [exact K2|]. intros a y Ia K. cbv beta in K. rewrite rbind_ok in K. destruct K as (arr & K & K').
      destruct (ISEV a arr true Ia K) as (e & ->). destruct (OW _ (IL _ Ia)) as (xs & (S0 & S1 & G & Sp & SH) & IN & FT).
      destruct (evs_filters _ _ _ _ _ _ _ _ _ _ SH FT) as [_ M0]. cbn [asset_name] in K.
      apply (create_spill _ _ _ S0 S1 G Sp t (sc_freq c) fl xs) in K; [|unfold filter_objective_variables; rewrite (py_index_nat_ok _ _ _ E); cbn [rbind]; now rewrite M0|exact SH].
      cbn [spill_cells]. eapply (ev_spill_ok vals s V); eauto. rewrite Forall_forall in *. auto.
Qed.

Lemma full_row t ys : extract_row vals (sc_idata c) (map asset_name assets) iv t = Ok ys -> row_is ys (row_cells c assets d t).
Proof.
  intros H. unfold extract_row in H.
  assert (exists row, nth_error iv t = Some row) as (row & E).
  { rewrite rbind_ok in H. destruct H as (r1 & H1 & _). unfold extract_site, filter_objective_variables in H1. rewrite rbind_ok in H1. destruct H1 as (l & H1 & _).
    rewrite rbind_ok in H1. destruct H1 as (row & H1 & _). exists row. unfold py_index in H1.
    destruct ((0 <=? Z.of_nat t)%Z && (Z.of_nat t <? Z.of_nat (List.length iv))%Z)%bool eqn:B.
    - rewrite Nat2Z.id in H1. destruct (nth_error iv t); cbn in H1; congruence.
    - destruct (Z.of_nat t <? 0)%Z eqn:B2; [apply Z.ltb_lt in B2; lia|]. discriminate. }
  repeat (rewrite rbind_ok in H; let r := fresh "r" in let K := fresh "K" in destruct H as (r & K & H)). injection H as <-.
  unfold row_cells, asset_rows. repeat apply row_is_app; try (eapply kind_row; eauto; discriminate).
  - eapply site_row; eauto.
  - match goal with K : extract_evs _ _ _ _ = Ok ?r |- row_is ?r _ => fail | _ => idtac end. eapply evs_row; eauto.
Qed.
End rows.
