(** * Totals2: loss and spill totals (proofs) *)
From Coq Require Import DecimalString.
From Verif Require Import Base Pulp Params Optimizer Types Assets EVs Site Extract Emit Prim Spec SpecReport SpecRun SpecNames Layout Rows Sem SemEv SemSite SemProg SemObj SemCells SemRows SemTable SemResults RunFacts Totals.
Open Scope Q_scope.
Open Scope string_scope.

Definition words : list string := ["electric_loss_mwh"; "evs-charger"; "spill"; "binary"; "charge_binary"].
Lemma words_computed : forallb (fun w => forallb (fun a => no_straddle w ("-" ++ a)) cell_attrs) words = true.
Proof. vm_compute. reflexivity. Qed.
Lemma word_col w x a : In w words -> In a cell_attrs -> contains w (column x a) = (contains w x || contains w ("-" ++ a))%bool.
Proof.
  intros Iw Ia. pose proof words_computed as H. rewrite forallb_forall in H. specialize (H w Iw). cbv beta in H. rewrite forallb_forall in H. unfold column. apply contains_append. exact (H a Ia).
Qed.
Lemma site_word w n : In w words -> contains w ("site-" ++ n) = contains w n.
Proof. intros Iw. cbn [words In] in Iw. repeat (destruct Iw as [<-|Iw]; [reflexivity|]). destruct Iw. Qed.

(** the attributes of a cell: every cell of an asset *)
Definition cell_forms (a : asset) : list (string * bool) :=   (* prefix of the column, is it an event *)
  match a with
  | AEVs c => (map (fun cc => (column (ev_name c) (cg_name cc), false)) (parts c)
               ++ map (fun ec => (column (ev_name c) (ce_name ec), true)) (ev_event_cfgs c)
               ++ map (fun e => (column (column (ev_name c) "charge-event") (show e), true)) (seq 0 (List.length (ev_event_cfgs c))))%list
  | _ => [(asset_name a, false)]
  end.

Fixpoint digits (s : string) : bool :=
  match s with EmptyString => true | String c s' => (let n := nat_of_ascii c in (48 <=? n) && (n <=? 57))%nat && digits s' end.
Lemma show_digits e : digits (show e) = true.
Proof.
  assert (forall u, digits (NilEmpty.string_of_uint u) = true) as H by (induction u; cbn; auto).
  unfold show, NilZero.string_of_uint. destruct (Nat.to_uint e) eqn:E; [reflexivity|..]; rewrite <- E; apply H.
Qed.
Lemma digits_free p c : digits (String c "") = false -> starts_with (String c p) "" = false -> forall s, digits s = true -> contains (String c p) s = false.
Proof.
  intros D _. induction s as [|b s IH]; intros H; [reflexivity|]. cbn [digits] in H, D. apply andb_true_iff in H. destruct H as [H1 H2]. cbn [contains prefix]. destruct (ascii_dec c b) as [->|]; [|now apply IH].
  rewrite andb_true_r in D. cbv zeta in *. rewrite D in H1. discriminate.
Qed.
Lemma dash_split p x y : p <> "" -> dashfree p = true -> contains p (x ++ "-" ++ y) = (contains p x || contains p y)%bool.
Proof.
  intros N D. rewrite (contains_append p ("-" ++ y)).
  - f_equal. cbn [append contains]. destruct p as [|c p]; [congruence|]. cbn [prefix]. destruct (ascii_dec c "-") as [->|]; [discriminate|reflexivity].
  - destruct p as [|c p]; [congruence|]. cbn [no_straddle]. apply forallb_forall. intros p2 I. cbn [dashfree] in D. apply andb_true_iff in D. destruct D as [_ D].
    assert (dashfree p2 = true /\ p2 <> "") as [D2 N2]. { clear -I D. induction p as [|b p IH]; [destruct I|]. cbn [dashfree] in D. cbn [suffixes] in I. destruct I as [<-|I]; [split; [exact D|discriminate]|]. apply andb_true_iff in D. now apply IH. }
    destruct p2 as [|b p2]; [congruence|]. cbn [dashfree] in D2. unfold starts_with. cbn [append prefix]. destruct (ascii_dec b "-") as [->|]; [discriminate|reflexivity].
Qed.
Lemma soc_word w x e : In w ["electric_loss_mwh"; "spill"; "binary"; "charge_binary"] -> contains w (column (column x "charge-event") (show e)) = contains w x.
Proof.
  intros I. unfold column. rewrite str_app_assoc. change (("-" ++ "charge-event") ++ "-" ++ show e) with ("-" ++ ("charge" ++ "-" ++ ("event" ++ "-" ++ show e))).
  assert (w <> "" /\ dashfree w = true) as [N D] by (cbn [In] in I; repeat (destruct I as [<-|I]; [split; [discriminate|reflexivity]|]); destruct I).
  rewrite !dash_split by assumption.
  assert (contains w (show e) = false) as -> by (pose proof (show_digits e) as SD; cbn [In] in I; repeat (destruct I as [<-|I]; [apply digits_free; auto|]); destruct I).
  cbn [In] in I; repeat (destruct I as [<-|I]; [cbn; now rewrite orb_false_r|]); destruct I.
Qed.

Section loss.
Let p := is_loss_col.
Lemma loss_col x a : contains "electric_loss_mwh" x = false -> In a cell_attrs -> p (column x a) = ((a =? "electric_loss_mwh") && negb (contains "evs-charger" x))%bool.
Proof.
  intros H Ia. unfold p, is_loss_col. rewrite !word_col by (first [exact Ia | cbn; tauto]). rewrite H.
  cbn [cell_attrs In] in Ia. repeat (destruct Ia as [<-|Ia]; [cbn [orb]; destruct (contains "evs-charger" x); reflexivity|]). destruct Ia.
Qed.
Lemma loss_asset d t a : ordinary_loss a -> cells_sum p (asset_cells d t a) == lost d t a.
Proof.
  intros OA. destruct a as [b|b|b|b|b|b|m|m]; cbn [ordinary_loss asset_name] in OA.
  4:{ destruct OA as (OC & OE & ON). cbn [asset_cells lost]. unfold ev_main_cells, ev_spill_columns. rewrite !cells_sum_app, !cells_sum_flat.
      assert (Qsum (map (fun x : nat * charger_cfg => cells_sum p (ev_charger_report d t b (fst x) (snd x))) (enumerate (ev_chargers b))) == 0) as ->.
      { apply Qsum_map_zero. intros [k cc] I. apply enumerate_in, nth_error_In in I. destruct (OC cc) as [O1 O2]; [apply in_app_iff; now left|]. apply cells_sum_none. intros n oq J. cbn [fst snd ev_charger_report In] in J.
        repeat (destruct J as [J|J]; [injection J as <- _; rewrite loss_col by (first [exact O1|attr_in]); rewrite O2; apply andb_false_r|]). destruct J. }
      assert (Qsum (map (fun x => cells_sum p (ev_spill_report d t b x)) (ev_spill_chargers b)) == 0) as ->.
      { apply Qsum_map_zero. intros cc I. destruct (OC cc) as [O1 O2]; [apply in_app_iff; now right|]. apply cells_sum_none. intros n oq J. cbn [fst snd ev_spill_report In] in J.
        repeat (destruct J as [J|J]; [injection J as <- _; rewrite loss_col by (first [exact O1|attr_in]); rewrite O2; apply andb_false_r|]). destruct J. }
      assert (cells_sum p (ev_soc_report d t b) == 0) as ->.
      { apply cells_sum_none. intros n oq I. unfold ev_soc_report in I. cbv zeta in I. rewrite in_app_iff, !in_map_iff in I.
        assert (forall e, contains "electric_loss_mwh" (column (column (ev_name b) "charge-event") (show e)) = false) as K; [|destruct I as [(e & I & _)|(e & I & _)]; injection I as <- _; rewrite loss_col by (first [apply K|attr_in]); reflexivity].
        intros e. rewrite soc_word by (cbn; tauto). exact ON. }
      rewrite (Qsum_map_ext _ (fun x : nat * charge_event_cfg => Qsum (map (fun k => d_ev_loss d (ev_name b) (fst x) k t) (seq 0 (List.length (ev_chargers b)))))).
      - rewrite (enum_sum (fun e => Qsum (map (fun k => d_ev_loss d (ev_name b) e k t) _))). ring.
      - intros [e ec] I. apply enumerate_in, nth_error_In in I. destruct (OE ec I) as [O1 O2]. unfold ev_event_report. cbv zeta. cbn [fst snd]. set (s1 := Qsum _). set (s2 := Qsum _). set (s3 := Qsum _).
        unfold cells_sum. cbn [map]. unfold selected. cbn [fst snd]. rewrite !loss_col by (first [exact O1|attr_in]). rewrite O2. cbn. ring. }
  all: destruct OA as [O1 O2]; cbn [asset_cells asset_name lost]; unfold cells_sum; cbn [map]; unfold selected; cbn [fst snd]; rewrite ?loss_col by (first [exact O1|attr_in]); rewrite ?O2; cbn; ring.
Qed.
End loss.
Lemma loss_site c d t : no_data_with "electric_loss_mwh" c -> cells_sum is_loss_col (site_cells c d t) == 0.
Proof.
  intros ND. apply cells_sum_none. intros n oq I. assert (contains "electric_loss_mwh" n = false) as K; [|unfold is_loss_col; now rewrite K]. unfold site_cells in I. destruct I as [I|[I|I]]; try (injection I as <- _; reflexivity).
  apply in_map_iff in I. destruct I as ([m l] & E & J). injection E as <- _. cbn [fst]. change (String "s" (String "i" (String "t" (String "e" (String "-" m))))) with ("site-" ++ m). rewrite site_word by (cbn; tauto). unfold id_columns in J. apply in_app_iff in J. destruct J as [J|J]; [|apply (ND _ J)].
  cbn [In] in J. repeat (destruct J as [J|J]; [injection J as <- _; reflexivity|]). destruct J.
Qed.

(** ** spill columns *)
Lemma charger_dash x a : contains "charger-" x = false -> ends_with "charger" x = false -> In a cell_attrs -> contains "charger-" (column x a) = false.
Proof.
  intros H1 H2 Ia. unfold column. assert (contains "charger-" ("-" ++ a) = false) as H3 by (cbn [cell_attrs In] in Ia; repeat (destruct Ia as [<-|Ia]; [reflexivity|]); destruct Ia).
  induction x as [|b x IH]; [exact H3|]. cbn [contains ends_with append] in *. apply orb_false_iff in H1, H2. destruct H1 as [P1 H1], H2 as [P2 H2]. rewrite (IH H1 H2), orb_false_r.
  destruct (prefix "charger-" (String b (x ++ String "-" a))) eqn:E; [exfalso|reflexivity]. change (String b (x ++ String "-" a)) with (String b x ++ ("-" ++ a)) in E.
  apply prefix_append in E. destruct E as [E|(p2 & E & N & S2)]; [unfold starts_with in E; congruence|].
  do 8 (destruct x as [|? x]; cbn [append] in E; [injection E; intros; subst; unfold starts_with in S2; cbn in S2; try discriminate S2; cbn in P2; try discriminate P2; try congruence|]);
  try (injection E; intros; subst; cbn in *; congruence).
Qed.
Lemma charger_keep x a : contains "charger-" x = true -> contains "charger-" (column x a) = true.
Proof. intros H. unfold column. exact (contains_mid "charger-" "" x ("-" ++ a) H). Qed.
Lemma spill_none x a : contains "spill" x = false -> In a cell_attrs -> contains "spill" (column x a) = false.
Proof. intros H Ia. rewrite word_col by (first [exact Ia|cbn; tauto]). rewrite H. cbn [cell_attrs In] in Ia. repeat (destruct Ia as [<-|Ia]; [reflexivity|]). destruct Ia. Qed.
Lemma spill_total_col x a : contains "spill" x = true -> contains "charger-" x = true -> contains "binary" x = false -> In a cell_attrs ->
  is_spill_total_col (column x a) = negb (contains "binary" a).
Proof.
  intros H1 H2 H3 Ia. unfold is_spill_total_col. rewrite (charger_keep _ _ H2), !word_col by (first [exact Ia|cbn; tauto]). rewrite H1, H3, andb_true_r. cbn [orb andb].
  cbn [cell_attrs In] in Ia. repeat (destruct Ia as [<-|Ia]; [reflexivity|]). destruct Ia.
Qed.
Lemma spill_col x a : contains "spill" x = true -> contains "charge_binary" x = false -> In a cell_attrs -> is_spill_col (column x a) = negb (contains "charge_binary" a).
Proof.
  intros H1 H3 Ia. unfold is_spill_col. rewrite !word_col by (first [exact Ia|cbn; tauto]). rewrite H1, H3. cbn [orb andb].
  cbn [cell_attrs In] in Ia. repeat (destruct Ia as [<-|Ia]; [reflexivity|]). destruct Ia.
Qed.
Lemma no_spill_cells a d t n oq : ordinary_spill a -> In (n, oq) (match a with AEVs c => ev_main_cells d t c | ASpill _ => [] | _ => asset_cells d t a end) -> contains "spill" n = false.
Proof.
  intros OA. destruct a as [b|b|b|b|b|b|m|m]; cbn [ordinary_spill asset_name asset_cells] in *.
  4:{ destruct OA as (O1 & _ & O3 & O4). unfold ev_main_cells. rewrite !in_app_iff, !in_flat_map. unfold ev_soc_report. cbv zeta. rewrite in_app_iff, !in_map_iff.
      intros [([k cc] & J & H)|[([e ec] & J & H)|[(e & H & _)|(e & H & _)]]].
      - apply enumerate_in, nth_error_In in J. cbn [ev_charger_report fst snd In] in H. repeat (destruct H as [H|H]; [injection H as <- _; apply spill_none; [now apply O1|attr_in]|]). destruct H.
      - apply enumerate_in, nth_error_In in J. cbn [ev_event_report fst snd In] in H. repeat (destruct H as [H|H]; [injection H as <- _; apply spill_none; [now apply O3|attr_in]|]). destruct H.
      - injection H as <- _. apply spill_none; [|attr_in]. rewrite soc_word by (cbn; tauto). exact O4.
      - injection H as <- _. apply spill_none; [|attr_in]. rewrite soc_word by (cbn; tauto). exact O4. }
  all: cbn [In]; intros H; repeat (destruct H as [H|H]; [injection H as <- _; apply spill_none; [exact OA|attr_in]|]); destruct H.
Qed.
Lemma spill_total_asset d t a : ordinary_spill a -> asset_fine a -> cells_sum is_spill_total_col (asset_cells d t a) == ev_spilled d t a.
Proof.
  intros OA AF. pose proof (fun n oq => no_spill_cells a d t n oq OA) as NS.
  assert (forall n, contains "spill" n = false -> is_spill_total_col n = false) as NT by (intros n H; unfold is_spill_total_col; now rewrite H).
  destruct a as [b|b|b|b|b|b|m|m]; try (cbn [ev_spilled]; apply cells_sum_none; intros n oq I; apply NT; eapply NS; exact I).
  - cbn [asset_cells]. rewrite cells_sum_app, (cells_sum_none _ (ev_main_cells d t b)) by (intros n oq I; apply NT; eapply NS; exact I).
    cbn in AF. destruct AF as (L1 & _). destruct OA as (_ & O2 & _). unfold ev_spill_columns. rewrite cells_sum_flat. destruct (ev_spill_chargers b) as [|cc [|? ?]] eqn:SP; try discriminate.
    destruct (O2 cc) as (A1 & A2 & A3); [now left|]. pose proof (fun a => spill_total_col _ a A1 A2 A3) as K. cbn [map ev_spilled]. unfold Qsum at 1. cbn [fold_right]. unfold ev_spill_report. cbv zeta. set (s1 := Qsum _). set (s2 := Qsum _).
    unfold cells_sum. cbn [map]. unfold selected. cbn [fst snd]. rewrite !K by attr_in. cbn. ring.
  - destruct OA as (A1 & A2 & A3). cbn [ev_spilled asset_cells]. apply cells_sum_none. intros n oq I. unfold is_spill_total_col. cbn [In asset_name] in I.
    repeat (destruct I as [I|I]; [injection I as <- _; rewrite (charger_dash _ _ A2 A3) by attr_in; apply andb_false_r|]). destruct I.
Qed.
Lemma spill_flag_asset d t a : ordinary_spill a -> asset_fine a -> contains "charge_binary" (asset_name a) = false -> cells_sum is_spill_col (asset_cells d t a) == dumped d t a + ev_spilled d t a.
Proof.
  intros OA AF CB. pose proof (fun n oq => no_spill_cells a d t n oq OA) as NS.
  assert (forall n, contains "spill" n = false -> is_spill_col n = false) as NT by (intros n H; unfold is_spill_col; now rewrite H).
  destruct a as [b|b|b|b|b|b|m|m]; try (cbn [ev_spilled dumped]; rewrite cells_sum_none; [ring|]; intros n oq I; apply NT; eapply NS; exact I).
  - cbn [asset_cells]. rewrite cells_sum_app, (cells_sum_none _ (ev_main_cells d t b)) by (intros n oq I; apply NT; eapply NS; exact I).
    cbn in AF. destruct AF as (L1 & _). destruct OA as (_ & O2 & _). unfold ev_spill_columns. rewrite cells_sum_flat. destruct (ev_spill_chargers b) as [|cc [|? ?]] eqn:SP; try discriminate.
    destruct (O2 cc) as (A1 & A2 & A3); [now left|]. 
    assert (contains "charge_binary" (column (ev_name b) (cg_name cc)) = false) as A4.
    { destruct (contains "charge_binary" (column (ev_name b) (cg_name cc))) eqn:E; [|reflexivity]. rewrite <- A3. symmetry. revert E. generalize (column (ev_name b) (cg_name cc)). clear. intros s. induction s as [|c s IH]; intros H; [discriminate|].
      cbn [contains] in H. apply orb_true_iff in H. destruct H as [H|H]; [|apply contains_tail; auto]. destruct (prefix_exists _ _ H) as (z & ->). exact (contains_mid "binary" "charge_" "binary" z eq_refl). }
    pose proof (fun a => spill_col _ a A1 A4) as K. cbn [map ev_spilled dumped]. unfold Qsum at 1. cbn [fold_right]. unfold ev_spill_report. cbv zeta. set (s1 := Qsum _). set (s2 := Qsum _).
    unfold cells_sum. cbn [map]. unfold selected. cbn [fst snd]. rewrite !K by attr_in. cbn. ring.
  - destruct OA as (A1 & A2 & A3). cbn [ev_spilled asset_cells dumped asset_name] in *. pose proof (fun a => spill_col _ a A1 CB) as K. unfold cells_sum. cbn [map]. unfold selected. cbn [fst snd]. rewrite !K by attr_in. cbn. ring.
Qed.
