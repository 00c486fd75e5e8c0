(** * RowNames: the column names of an extracted row do not depend on the solution (proofs) *)
From Coq Require Import Permutation.
From Verif Require Import Base Pulp Params Optimizer Types Assets EVs Site Constraints Objectives Extract Pipeline Emit Prim Spec SpecReport SpecRun SpecNames Layout Rows Sem SemEv SemSite SemProg SemObj SemCells SemRows SemTable SemResults RunFacts Builds ExtractOk Totals Returns.
Open Scope Q_scope.
Open Scope string_scope.

Lemma rmap_same {A B} (R : B -> B -> Prop) (f g : A -> res B) l ys zs : (forall x y z, f x = Ok y -> g x = Ok z -> R y z) -> rmap f l = Ok ys -> rmap g l = Ok zs -> Forall2 R ys zs.
Proof.
  intros H. rewrite !rmap_ok. intros F. revert zs. induction F as [|x y l ys E F IH]; intros zs G; inversion G; subst; constructor; eauto.
Qed.
Definition same_names (a b : list (string * cell)) : Prop := map fst a = map fst b.
Lemma same_cells (a b : list (string * cell)) : Forall2 (fun x y => fst x = fst y) a b -> same_names a b.
Proof. unfold same_names. induction 1 as [|x y a b E F IH]; cbn [map]; [reflexivity|]. now rewrite E, IH. Qed.
Lemma same_concat l m : Forall2 same_names l m -> same_names (List.concat l) (List.concat m).
Proof. unfold same_names. induction 1 as [|x y a b E F IH]; cbn [List.concat]; [reflexivity|]. now rewrite !map_app, E, IH. Qed.
Lemma same_app a b x y : same_names a x -> same_names b y -> same_names (a ++ b) (x ++ y).
Proof. unfold same_names. intros E F. now rewrite !map_app, E, F. Qed.

Ltac binds H := repeat (rewrite rbind_ok in H; let r := fresh "r" in let K := fresh "K" in destruct H as (r & K & H)).

Lemma attr_same v w nm clip l y z : attr_cells v nm clip l = Ok y -> attr_cells w nm clip l = Ok z -> same_names y z.
Proof. intros H G. apply same_cells. eapply rmap_same; [|exact H|exact G]. cbv beta. intros x a b E F. binds E. binds F. injection E as <-. injection F as <-. reflexivity. Qed.
Lemma raw_same v w nm l y z : attr_cells_raw v nm l = Ok y -> attr_cells_raw w nm l = Ok z -> same_names y z.
Proof. intros H G. apply same_cells. eapply rmap_same; [|exact H|exact G]. cbv beta. intros x a b E F. binds E. binds F. injection E as <-. injection F as <-. reflexivity. Qed.
Lemma object_same v w x y z : extract_object v x = Ok y -> extract_object w x = Ok z -> same_names y z.
Proof. destruct x; cbn [extract_object]; try apply attr_same; try apply raw_same; intros H G; injection H as <-; injection G as <-; reflexivity. Qed.
Lemma kind_same v w iv i k y z : extract_kind v iv i k = Ok y -> extract_kind w iv i k = Ok z -> same_names y z.
Proof.
  unfold extract_kind. intros H G. binds H. binds G. injection H as <-. injection G as <-. rewrite K1 in K. injection K as <-. apply same_concat. eapply rmap_same; [|exact K0|exact K2]. intros x a b. apply object_same.
Qed.
Lemma site_same v w d iv i y z : extract_site v d iv i = Ok y -> extract_site w d iv i = Ok z -> same_names y z.
Proof.
  unfold extract_site. intros H G. binds H. binds G. rewrite K0 in K. injection K as <-. destruct r0 as [|[r| | | | | | | | |] [|? ?]]; try discriminate. binds H. binds G. rewrite K1 in K. injection K as <-. injection H as <-. injection G as <-. reflexivity.
Qed.
Lemma charger_same v w a kc y z : ev_charger_cells v a kc = Ok y -> ev_charger_cells w a kc = Ok z -> same_names y z.
Proof.
  unfold ev_charger_cells. cbv zeta. destruct (fst kc <? n_chargers (ea_cfg a))%nat; [|discriminate]. intros H G. apply same_cells. eapply rmap_same; [|exact H|exact G]. cbv beta. intros x p q E F. binds E. binds F. injection E as <-. injection F as <-. reflexivity.
Qed.
Lemma event_same v w a kc y z : ev_event_cells v a kc = Ok y -> ev_event_cells w a kc = Ok z -> same_names y z.
Proof.
  unfold ev_event_cells. cbv zeta. intros H G. apply same_cells. eapply rmap_same; [|exact H|exact G]. cbv beta. intros x p q E F. binds E. binds F. injection E as <-. injection F as <-. reflexivity.
Qed.
Lemma soc_same v w a kc y z : ev_soc_cells v a kc = Ok y -> ev_soc_cells w a kc = Ok z -> same_names y z.
Proof.
  unfold ev_soc_cells. cbv zeta. intros H G. apply same_cells. eapply rmap_same; [|exact H|exact G]. cbv beta. intros x p q E F. binds E. binds F. injection E as <-. injection F as <-. reflexivity.
Qed.
Lemma evs_same v w names iv i y z : extract_evs v names iv i = Ok y -> extract_evs w names iv i = Ok z -> same_names y z.
Proof.
  unfold extract_evs. intros H G. rewrite rbind_ok in H, G. destruct H as (l & K & H), G as (l' & K' & G). rewrite K' in K. injection K as <-. destruct l' as [|x l']; [injection H as <-; injection G as <-; reflexivity|].
  cbv zeta in H, G. rewrite rbind_ok in H, G. destruct H as (p1 & P1 & H), G as (q1 & Q1 & G). rewrite Q1 in P1. injection P1 as <-.
  rewrite rbind_ok in H, G. destruct H as (p2 & P2 & H), G as (q2 & Q2 & G). rewrite rbind_ok in H, G. destruct H as (p3 & P3 & H), G as (q3 & Q3 & G). rewrite Q3 in P3. injection P3 as <-.
  rewrite rbind_ok in H, G. destruct H as (p4 & P4 & H), G as (q4 & Q4 & G). injection H as <-. injection G as <-.
  apply same_app; apply same_concat; (eapply rmap_same; [|eassumption|eassumption]).
  - intros a b e E F. unfold ev_cells in E, F. cbv zeta in E, F. binds E. binds F. injection E as <-. injection F as <-.
    repeat apply same_app; apply same_concat; (eapply rmap_same; [|eassumption|eassumption]); intros ? ? ?; [apply charger_same|apply event_same|apply soc_same].
  - intros a b e E F. unfold ev_spill_cells in E, F. binds E. binds F. injection E as <-. injection F as <-. apply same_concat; (eapply rmap_same; [|eassumption|eassumption]). intros ? ? ?. apply charger_same.
Qed.
Lemma row_same v w d names iv i y z : extract_row v d names iv i = Ok y -> extract_row w d names iv i = Ok z -> same_names y z.
Proof.
  unfold extract_row. intros H G. binds H. binds G. injection H as <-. injection G as <-.
  repeat apply same_app; first [solve [eapply site_same; eassumption]|solve [eapply kind_same; eassumption]|solve [eapply evs_same; eassumption]].
Qed.

(** ** Any answer of the solver gives a table *)
Section any.
Context (c : site_cfg) (assets : list asset) (fl : flags) (iv : interval_vars) (lo hi : nat) (cs : list constr) (P : program c assets fl iv lo hi cs).
Context (RD : site_ready c assets) (DF : full_data (sc_idata c)) (NM : names_ok c assets) (DC : distinct_columns c assets).
Context (PN : forall a, In a assets -> contains "evs" (asset_name a) = true -> exists e, a = AEVs e).
Context (vals : values) (OC : forall row x v, In row iv -> In x row -> In v (must_vars x) \/ In v (bal_vars x) -> vals v <> None).

Lemma row_named t ys : (t < n_intervals c)%nat -> extract_row vals (sc_idata c) (map asset_name assets) iv t = Ok ys ->
  exists d, map fst ys = map fst (row_cells c assets d 0).
Proof.
  intros Ht H. set (s0 := fun _ : nat => 0). set (v0 := fun v : lpvar => Some (s0 (v_id v))).
  destruct (extract_row_ok v0 c assets fl iv lo hi cs P RD DF ltac:(discriminate) PN t Ht) as (y0 & H0).
  assert (vals_of (d_of s0 iv) s0 iv) as VO by (eapply d_of_vals; [apply (pr_names _ _ _ _ _ _ _ P)|apply (pr_shape _ _ _ _ _ _ _ P)|apply (pr_fine _ _ _ _ _ _ _ P)]).
  exists (d_of s0 iv). rewrite (row_same _ _ _ _ _ _ _ _ H H0).
  assert (row_is y0 (row_cells c assets (d_of s0 iv) t)) as RI.
  { eapply (full_row v0 s0); eauto; try discriminate.
    - intros v x E. unfold v0 in E. congruence.
    - intros a t' Ia Ht'. destruct a as [b|b|b|b|b|b|m|m]; cbn [clip_ok]; auto. cbv zeta.
      assert (forall q, d_qty (d_of s0 iv) (b_name b) q t' == 0) as Z.
      { intros q. cbn [d_of d_qty]. generalize (nth t' iv []). intros row. induction row as [|x row IH]; [reflexivity|]. unfold first_val in *. cbn [find]. destruct (is_plain (b_name b) x); [|exact IH]. destruct x; cbn [plain_val]; destruct q; reflexivity. }
      splits; rewrite Z; discriminate.
    - apply NM. }
  rewrite (row_is_names _ _ RI). apply row_names.
Qed.
Lemma any_table : exists rows, rmap (extract_row vals (sc_idata c) (map asset_name assets) iv) (seq 0 (id_n (sc_idata c))) = Ok rows /\
  exists d, (forall row, In row rows -> map fst row = map fst (row_cells c assets d 0)) /\ table_of (map fst (row_cells c assets d 0)) rows (fold_left append_row rows []) /\
  check_array_lengths (fold_left append_row rows []) = Ok tt.
Proof.
  destruct (extract_rows_ok vals c assets fl iv lo hi cs P RD DF OC PN) as (rows & HR). exists rows. split; [exact HR|]. apply rmap_ok in HR.
  set (d := mkDispatch (fun _ => 0) (fun _ => 0) (fun _ _ _ => 0) (fun _ _ _ _ => 0) (fun _ _ _ _ => 0) (fun _ _ _ _ => 0) (fun _ _ _ => 0) (fun _ _ _ => 0) (fun _ _ _ => 0) (fun _ _ _ => 0)).
  exists d. assert (forall row, In row rows -> map fst row = map fst (row_cells c assets d 0)) as NMS.
  { intros row I. destruct (Forall2_in_r _ _ _ _ HR I) as (t & It & K). apply in_seq in It. destruct (row_named t row ltac:(unfold n_intervals; lia) K) as (d' & ->). apply row_names. }
  assert (NoDup (map fst (row_cells c assets d 0))) as ND.
  { eapply Permutation_NoDup; [|apply (DC d 0%nat)]. apply Permutation_map, Permutation_sym, row_perm. }
  assert (check_array_lengths (fold_left append_row rows []) = Ok tt) as HL.
  { eapply rows_lengths; [exact ND| | |exact NMS]; [unfold row_cells, site_cells; discriminate|]. intros X. subst rows. apply Forall2_len in HR. rewrite seq_length in HR. destruct RD as (R1 & _). unfold n_intervals in R1. cbn in HR. lia. }
  splits; auto. eapply build_table; [exact NMS|apply prices_once; exact NM|exact HL].
Qed.
End any.
