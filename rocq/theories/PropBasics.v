(** * PropBasics: C36, C44, C46 - sequences, units, lookups *)
From Verif Require Import Base Pulp Params Optimizer Types Assets EVs Site Emit Prim Spec SpecReport SpecRun Layout Rows Sem SemEv SemSite SemProg.
Open Scope Q_scope.

(** ** C36: repeat_to_match_length *)
Lemma tile_length {A} (a : list A) q : List.length (tile a q) = (q * List.length a)%nat.
Proof. induction q; cbn; [reflexivity|]. rewrite app_length, IHq. lia. Qed.
Lemma tile_nth {A} (a : list A) q k : a <> [] -> (k < q * List.length a)%nat -> nth_error (tile a q) k = nth_error a (k mod List.length a).
Proof.
  intros N. revert k. assert (0 < List.length a)%nat as L by (destruct a; [congruence|cbn; lia]).
  induction q as [|q IH]; intros k K; [lia|]. cbn [tile]. destruct (Nat.lt_ge_cases k (List.length a)) as [H|H].
  - rewrite nth_error_app1 by lia. rewrite Nat.mod_small by lia. reflexivity.
  - rewrite nth_error_app2 by lia. rewrite IH by lia. f_equal.
    replace k with ((k - List.length a) + 1 * List.length a)%nat at 2 by lia. rewrite Nat.mod_add by lia. reflexivity.
Qed.

Theorem C36_repeat {A} (a : list A) n : a <> [] ->
  exists b, repeat_to_match_length a n = Ok b /\ List.length b = n /\
    forall k, (k < n)%nat -> nth_error b k = nth_error a (k mod List.length a).
Proof.
  intros N. assert (0 < List.length a)%nat as L by (destruct a; [congruence|cbn; lia]).
  exists (tile a (n / List.length a) ++ firstn (n mod List.length a) a)%list.
  pose proof (Nat.div_mod n (List.length a) ltac:(lia)) as D. pose proof (Nat.mod_upper_bound n (List.length a) ltac:(lia)) as M. rewrite Nat.mul_comm in D.
  assert (List.length (tile a (n / List.length a)) = (n / List.length a * List.length a)%nat) as LT by apply tile_length.
  split; [|split].
  - destruct a; [congruence|reflexivity].
  - rewrite app_length, LT, firstn_length, Nat.min_l by lia. symmetry. exact D.
  - intros k K. destruct (Nat.lt_ge_cases k (n / List.length a * List.length a)) as [H|H].
    + rewrite nth_error_app1 by lia. now apply tile_nth.
    + rewrite nth_error_app2 by lia. rewrite LT.
      set (q := (n / List.length a * List.length a)%nat) in *. set (r := (k - q)%nat).
      assert (k = r + n / List.length a * List.length a)%nat as E by (subst r q; lia).
      replace (k mod List.length a)%nat with r by (rewrite E, Nat.mod_add by lia; rewrite Nat.mod_small; lia).
      assert (r < n mod List.length a)%nat as R by lia. clearbody r. clear -R M. revert M R.
      generalize (n mod List.length a)%nat. intros m. clear n. revert a r.
      induction m as [|m IH]; intros a r' M R; [lia|]. destruct a as [|x a]; [cbn in M; lia|]. cbn [firstn]. destruct r'; [reflexivity|]. cbn. apply IH; cbn in M; lia.
Qed.
Theorem C36_empty {A} n : repeat_to_match_length (@nil A) n = Err ZeroDivErr.
Proof. reflexivity. Qed.
Lemma nth_error_eq {A} (l l' : list A) : List.length l = List.length l' -> (forall k, (k < List.length l)%nat -> nth_error l k = nth_error l' k) -> l = l'.
Proof.
  revert l'. induction l as [|x l IH]; intros [|y l'] L H; cbn in L; try discriminate; [reflexivity|].
  pose proof (H 0%nat ltac:(cbn; lia)) as H0. cbn in H0. injection H0 as ->. f_equal. apply IH; [lia|]. intros k K. apply (H (S k)). cbn. lia.
Qed.
(** already long enough: nothing changes *)
Theorem C36_identity {A} (a : list A) : a <> [] -> repeat_to_match_length a (List.length a) = Ok a.
Proof.
  intros N. destruct (C36_repeat a (List.length a) N) as (b & E & L & H). rewrite E. f_equal. apply nth_error_eq; [exact L|].
  intros k K. rewrite H by lia. now rewrite Nat.mod_small by lia.
Qed.
Theorem C36_idempotent {A} (a b : list A) n : repeat_to_match_length a n = Ok b -> (0 < n)%nat -> repeat_to_match_length b n = Ok b.
Proof.
  intros E P. assert (a <> []) as N by (intros ->; discriminate). destruct (C36_repeat a n N) as (b' & E' & L & _). rewrite E in E'. injection E' as <-.
  subst n. apply C36_identity. destruct b; [cbn in P; lia|discriminate].
Qed.
(** a single value is repeated for every interval; a longer array is cut *)
Theorem C36_scalar {A} (x : A) n : repeat_to_match_length [x] n = Ok (repeat x n).
Proof.
  destruct (C36_repeat [x] n ltac:(discriminate)) as (b & E & L & H). rewrite E. f_equal. apply nth_error_eq; [now rewrite repeat_length|].
  intros k K. rewrite H by lia. cbn [List.length]. rewrite Nat.mod_1_r. cbn. rewrite L in K. symmetry. clear -K. revert k K. induction n; intros [|k] K; cbn; auto; try lia. apply IHn. lia.
Qed.
Theorem C36_longer {A} (a : list A) n : (n < List.length a)%nat -> repeat_to_match_length a n = Ok (firstn n a).
Proof.
  intros H. destruct a as [|x a]; [cbn in H; lia|]. unfold repeat_to_match_length. rewrite Nat.div_small, Nat.mod_small by lia. reflexivity.
Qed.
Example C36_sample : repeat_to_match_length [1; 2; 3] 7 = Ok [1; 2; 3; 1; 2; 3; 1].
Proof. reflexivity. Qed.

(** ** C44: Freq *)
Theorem C44_round_trip f x : f <> 0%Z ->
  (exists y, mwh_to_mw f (mw_to_mwh f x) = Ok y /\ y == x) /\ (exists y, mwh_to_mw f x = Ok y /\ mw_to_mwh f y == x).
Proof.
  intros N. assert (~ inject_Z f == 0) as NZ by (intros E; apply N; unfold Qeq in E; cbn in E; lia).
  unfold mwh_to_mw. destruct (Z.eqb_spec f 0) as [E|_]; [congruence|]. split; eexists; (split; [reflexivity|]); unfold mw_to_mwh; field; auto.
Qed.
Theorem C44_zero_minutes x : mwh_to_mw 0%Z x = Err ZeroDivErr /\ mw_to_mwh 0%Z x == 0.
Proof. split; [reflexivity|]. unfold mw_to_mwh. change (inject_Z 0) with 0. field. Qed.
Theorem C44_linear f a x y : mw_to_mwh f (a * x + y) == a * mw_to_mwh f x + mw_to_mwh f y.
Proof. unfold mw_to_mwh. field. Qed.
Theorem C44_monotone f x y : (0 < f)%Z -> (x <= y <-> mw_to_mwh f x <= mw_to_mwh f y) /\ (0 <= x <-> 0 <= mw_to_mwh f x).
Proof.
  intros P. assert (0 < inject_Z f / 60) as H.
  { assert (0 < inject_Z f) by (unfold Qlt; cbn; lia). unfold Qdiv. apply Qmult_lt_0_compat; [assumption|reflexivity]. }
  assert (forall z, mw_to_mwh f z == z * (inject_Z f / 60)) as E by (intros z; unfold mw_to_mwh; field). rewrite !E. 
  split; split; intros K.
  - apply Qmult_le_compat_r; [assumption|lra].
  - apply Qmult_le_r in K; assumption.
  - rewrite <- (Qmult_0_l (inject_Z f / 60)). apply Qmult_le_compat_r; [assumption|lra].
  - rewrite <- (Qmult_0_l (inject_Z f / 60)) in K. apply Qmult_le_r in K; assumption.
Qed.
Theorem C44_hourly x : mw_to_mwh 60%Z x == x /\ (exists y, mwh_to_mw 60%Z x = Ok y /\ y == x).
Proof. split; [unfold mw_to_mwh; change (inject_Z 60) with 60; field|]. eexists. split; [reflexivity|]. change (inject_Z 60) with 60. field. Qed.
(** the same power over twice the time is twice the energy *)
Theorem C44_additive_in_time f g x : mw_to_mwh (f + g)%Z x == mw_to_mwh f x + mw_to_mwh g x.
Proof. unfold mw_to_mwh. rewrite inject_Z_plus. field. Qed.
Example C44_sample : mw_to_mwh 5%Z 12 == 1 /\ mwh_to_mw 5%Z 1 = Ok (1 * 60 / inject_Z 5).
Proof. split; reflexivity. Qed.

(** ** C46: looking up the variables of an asset *)
(** Python's [iv[i]] *)
Theorem C46_index {A} (l : list A) (i : Z) :
  py_index l i = (if (0 <=? i)%Z then match nth_error l (Z.to_nat i) with Some x => Ok x | None => Err IndexErr end
                  else if (- Z.of_nat (List.length l) <=? i)%Z
                       then match nth_error l (Z.to_nat (Z.of_nat (List.length l) + i)) with Some x => Ok x | None => Err IndexErr end
                       else Err IndexErr).
Proof.
  unfold py_index, of_option. destruct (Z.leb_spec 0 i) as [H|H]; cbn [andb].
  - destruct (Z.ltb_spec i (Z.of_nat (List.length l))) as [K|K]; [reflexivity|]. assert ((i <? 0)%Z = false) as -> by (apply Z.ltb_ge; lia). cbn [andb].
    destruct (nth_error l (Z.to_nat i)) eqn:E; [|reflexivity]. assert (Z.to_nat i < List.length l)%nat by (apply nth_error_Some; congruence). lia.
  - assert ((i <? 0)%Z = true) as -> by (apply Z.ltb_lt; lia). cbn [andb]. reflexivity.
Qed.
(** exactly the objects of this type and name, in order *)
Theorem C46_filter iv i k name row (p : oneint -> bool) :
  (forall x, p x = true <-> (forall k', k = Some k' -> kind_of x = k') /\ (forall n, name = Some n -> oi_name x = n)) ->
  filter_objective_variables iv i k name = match py_index iv i with Ok row => Ok (filter p row) | Err e => Err e end /\
  (filter_all_intervals iv k name = map (filter p) iv) /\
  (py_index iv i = Ok row -> forall x, In x (filter p row) <-> In x row /\ (forall k', k = Some k' -> kind_of x = k') /\ (forall n, name = Some n -> oi_name x = n)).
Proof.
  intros H. assert (forall x, matches k name x = p x) as E.
  { intros x. apply eq_true_iff_eq. rewrite H. unfold matches. rewrite andb_true_iff. split.
    - intros [A B]. split; [intros k' ->; now apply kind_eqb_iff|intros n ->; now apply String.eqb_eq].
    - intros [A B]. split; [destruct k as [k'|]; auto; apply kind_eqb_iff; auto|destruct name as [n|]; auto; apply String.eqb_eq; auto]. }
  split; [|split].
  - unfold filter_objective_variables. destruct (py_index iv i) as [l|]; [|reflexivity]. cbn [rbind]. f_equal. now apply filter_ext.
  - unfold filter_all_intervals. apply map_ext. intros l. now apply filter_ext.
  - intros _ x. rewrite filter_In, H. reflexivity.
Qed.
Definition type_names : list (string * option kind) :=
  [("battery", Some KBattery); ("boiler", Some KBoiler); ("chp", Some KCHP); ("evs", Some KEv); ("heat-pump", Some KHeatPump);
   ("renewable-generator", Some KRenewable); ("site", Some KSite); ("spill", Some KSpill); ("spill_evs", Some KEvSpill); ("*", None)]%string.
(** type names: the ten documented strings, anything else (also "valve") raises KeyError *)
Theorem C46_type_names iv i t name : 
  filter_objective_variables_str iv i (Some t) name =
    match assoc t type_names with Some k => filter_objective_variables iv i k name | None => Err KeyErr end.
Proof.
  unfold filter_objective_variables_str, map_type, type_mapper, type_names, assoc.
  repeat match goal with |- context [if String.eqb ?a ?b then _ else _] => destruct (String.eqb a b); [reflexivity|] end. reflexivity.
Qed.
Theorem C46_valve_type_unknown iv i name : filter_objective_variables_str iv i (Some "valve"%string) name = Err KeyErr.
Proof. reflexivity. Qed.

(** Within [Site.optimize] the lookup by type and name gives exactly the objects this asset created for this interval. *)
Lemma intervals_created c assets fl : forall k iv o iv' o',
  site_intervals c assets fl iv (seq (List.length iv) k) o = Ok (iv', o') ->
  exists rows, iv' = (iv ++ rows)%list /\ List.length rows = k /\
    forall j row, nth_error rows j = Some row -> exists oa r xss ob, site_one_interval c (List.length iv + j) oa = Ok (OISite r, ob) /\ row = (OISite r :: List.concat xss)%list /\ 
      Forall2 (fun a xs => exists o1 o2, asset_one_interval a (List.length iv + j) (sc_freq c) fl o1 = Ok (xs, o2)) assets xss.
Proof.
  induction k as [|k IH]; intros iv o iv' o' H; cbn [seq site_intervals] in H.
  - apply ret_ok in H. destruct H as [<- <-]. exists []. rewrite app_nil_r. splits; auto. intros [|j] row E; discriminate.
  - rewrite bind_ok in H. destruct H as (iv1 & o1 & H1 & H). unfold site_interval in H1.
    rewrite bind_ok in H1. destruct H1 as (s & oa & HS & H1). rewrite bind_ok in H1. destruct H1 as (xs & ob & HX & H1).
    cbv zeta in H1. rewrite bind_ok in H1. destruct H1 as (? & oc & _ & H1). rewrite bind_ok in H1. destruct H1 as (? & od & _ & H1). apply ret_ok in H1. destruct H1 as [<- <-].
    assert (exists r, s = OISite r) as (r & ->).
    { unfold site_one_interval in HS. do 4 (rewrite bind_ok in HS; destruct HS as (? & ? & _ & HS)). apply ret_ok in HS. destruct HS as [<- _]. eauto. }
    replace (S (List.length iv)) with (List.length (iv ++ [OISite r :: List.concat xs])%list) in H by (rewrite app_length; cbn; lia).
    destruct (IH _ _ _ _ H) as (rows & -> & L & K). exists ((OISite r :: List.concat xs) :: rows). rewrite <- app_assoc. splits; [reflexivity|cbn; lia|].
    intros [|j] row E; cbn in E.
    + injection E as <-. rewrite Nat.add_0_r. exists o, r, xs, oa. splits; auto. clear -HX.
      revert oa xs ob HX. set (n := List.length iv). clearbody n. revert assets. intros l. induction l as [|a l IHl]; intros oa xs ob H; cbn [forM] in H.
      * apply ret_ok in H. destruct H as [<- _]. constructor.
      * rewrite bind_ok in H. destruct H as (y & o1 & H1 & H). rewrite bind_ok in H. destruct H as (ys & o2 & H2 & H). apply ret_ok in H. destruct H as [<- _]. constructor; eauto.
    + specialize (K j row E). rewrite app_length in K. cbn [List.length] in K. now replace (List.length iv + S j)%nat with (List.length iv + 1 + j)%nat by lia.
Qed.
Theorem C46_own_objects c assets fl o iv o' : build_base c assets fl o = Ok (iv, o') ->
  List.length iv = n_intervals c /\
  forall t a, (t < n_intervals c)%nat -> In a assets ->
    exists row xs o1 o2, nth_error iv t = Some row /\ asset_one_interval a t (sc_freq c) fl o1 = Ok (xs, o2) /\
      forall k, k <> KSite -> filter_objective_variables iv (Z.of_nat t) (Some k) (Some (asset_name a)) = Ok (filter (fun x => kind_eqb (kind_of x) k) xs).
Proof.
  intros H. destruct (base_program _ _ _ _ _ _ H) as (cs & P & _). split; [apply (pr_len _ _ _ _ _ _ _ P)|].
  unfold build_base in H. rewrite bind_ok in H. destruct H as (? & ? & H0 & H). apply massert_ok in H0. destruct H0 as [_ <-].
  rewrite bind_ok in H. destruct H as (iv1 & o1 & H1 & H). rewrite bind_ok in H. destruct H as (? & ? & _ & H). apply ret_ok in H. destruct H as [-> _].
  change (seq 0 (id_n (sc_idata c))) with (seq (List.length (@nil (list oneint))) (n_intervals c)) in H1.
  destruct (intervals_created _ _ _ _ _ _ _ _ H1) as (rows & E & L & K). cbn [app] in E. subst rows. cbn [List.length Nat.add] in K.
  intros t a Ht Ia. destruct (nth_error_lt iv t) as (row & E); [lia|]. destruct (K t row E) as (oa & r & xss & ob & HS & -> & F).
  assert (site_shape c r) as SR.
  { destruct (site_alloc c t (natural [] (mkDispatch (fun _ => 0) (fun _ => 0) (fun _ _ _ => 0) (fun _ _ _ _ => 0) (fun _ _ _ _ => 0) (fun _ _ _ _ => 0) (fun _ _ _ => 0) (fun _ _ _ => 0) (fun _ _ _ => 0) (fun _ _ _ => 0))) _ _ _ HS) as (_ & _ & _ & (r' & ER & S) & _). injection ER as <-. exact S. }
  assert (Forall2 (fun a xs => asset_shape a t (sc_freq c) fl xs) assets xss) as FS.
  { eapply Forall2_impl; [|exact F]. cbv beta. intros b xs _ (q1 & q2 & HQ).
    destruct (asset_alloc b t (sc_freq c) fl (natural [] (mkDispatch (fun _ => 0) (fun _ => 0) (fun _ _ _ => 0) (fun _ _ _ _ => 0) (fun _ _ _ _ => 0) (fun _ _ _ _ => 0) (fun _ _ _ => 0) (fun _ _ _ => 0) (fun _ _ _ => 0) (fun _ _ _ => 0))) _ _ _ HQ) as (_ & _ & _ & S & _). exact S. }
  pose proof (owns_exists c assets fl t r xss SR FS (pr_names _ _ _ _ _ _ _ P)) as FO.
  assert (exists xs, (exists o1 o2, asset_one_interval a t (sc_freq c) fl o1 = Ok (xs, o2)) /\ owns a t (sc_freq c) fl (OISite r :: List.concat xss)%list xs) as (xs & (q1 & q2 & HQ) & O).
  { revert F FO Ia. generalize (OISite r :: List.concat xss)%list. intros row0 F. clear -F. induction F as [|b ys l l' Hb F IH]; intros FO Ia; [destruct Ia|].
    inversion FO; subst. destruct Ia as [->|Ia]; eauto. }
  exists (OISite r :: List.concat xss)%list, xs, q1, q2. splits; auto. intros k Nk. unfold filter_objective_variables.
  assert (py_index iv (Z.of_nat t) = Ok (OISite r :: List.concat xss)%list) as ->.
  { rewrite C46_index. assert ((0 <=? Z.of_nat t)%Z = true) as -> by (apply Z.leb_le; lia). rewrite Nat2Z.id, E. reflexivity. }
  cbn [rbind]. f_equal. now apply O.
Qed.
