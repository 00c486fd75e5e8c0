(** * PropHistory (C47): optimize does not depend on earlier runs *)
From Verif Require Import Base Pulp Params Optimizer Types Assets EVs Site Constraints Objectives Extract Pipeline IntervalData Process Prim Emit Mono Shift ShiftRun Blind PropBasics.
Open Scope Q_scope.
Open Scope list_scope.

(** ** The store *)
Lemma put_same {A} (st : list A) r a : nth_error st r = Some a -> put st r a = st.
Proof. revert r. induction st as [|x st IH]; intros [|r] H; cbn in *; try discriminate; [congruence|]. now rewrite IH. Qed.
Lemma put_at {A} (st : list A) r a x : nth_error st r = Some x -> nth_error (put st r a) r = Some a.
Proof. revert r. induction st as [|y st IH]; intros [|r] H; cbn in *; try discriminate; auto. Qed.
Lemma put_other {A} (st : list A) r a k : k <> r -> nth_error (put st r a) k = nth_error st k.
Proof. revert r k. induction st as [|y st IH]; intros [|r] [|k] H; cbn in *; auto; try lia. Qed.
Lemma put_length {A} (st : list A) r a : List.length (put st r a) = List.length st.
Proof. revert r. induction st as [|y st IH]; intros [|r]; cbn; auto. Qed.

Lemma fit_twice n a a' : fit_asset n a = Ok a' -> fit_asset n a' = Ok a' /\ fitted n a' = true.
Proof.
  destruct a; cbn [fit_asset]; intros H; try (injection H as <-; cbn; auto; fail).
  destruct (Nat.eqb_spec (List.length (rg_available_mwh c)) n) as [E|E].
  - injection H as <-. cbn [fit_asset fitted]. rewrite E, Nat.eqb_refl. auto.
  - destruct (repeat_to_match_length (rg_available_mwh c) n) as [l|] eqn:R; cbn [rbind] in H; [|discriminate]. injection H as <-. cbn [fit_asset fitted rg_available_mwh].
    destruct (C36_repeat (rg_available_mwh c) n) as (b & R2 & <- & _). { intros X. rewrite X in R. discriminate R. }
    rewrite R in R2. injection R2 as <-. rewrite Nat.eqb_refl. auto.
Qed.
Lemma fitted_fix n a : fitted n a = true -> fit_asset n a = Ok a.
Proof. destruct a; cbn [fitted fit_asset]; auto. intros ->. auto. Qed.
Definition series (a : asset) : bool := match a with ARenewable _ => true | _ => false end.
Lemma fit_series n a a' : fit_asset n a = Ok a' -> series a' = series a.
Proof.
  destruct a; cbn [fit_asset]; intros H; try (injection H as <-; reflexivity).
  destruct (Nat.eqb _ n); [injection H as <-; reflexivity|]. destruct (repeat_to_match_length _ n); cbn in H; [|discriminate]. injection H as <-. reflexivity.
Qed.
Lemma plain_fix n a a' : series a = false -> fit_asset n a = Ok a' -> a' = a.
Proof. destruct a; cbn; intros S H; congruence. Qed.

(** what [fit_refs] leaves alone *)
Lemma fit_refs_frame n refs : forall st k a, nth_error st k = Some a -> (~ In k refs \/ series a = false \/ fitted n a = true) ->
  nth_error (fst (fit_refs n refs st)) k = Some a.
Proof.
  induction refs as [|r rs IH]; intros st k a E H; cbn [fit_refs fst]; auto.
  assert (~ In k rs \/ series a = false \/ fitted n a = true) as H' by (cbn in H; tauto).
  destruct (nth_error st r) as [b|] eqn:Er; [|auto]. destruct (fit_asset n b) as [b'|e] eqn:F; [|exact E].
  apply IH; auto. destruct (Nat.eq_dec k r) as [->|Ne]; [|now rewrite put_other].
  rewrite E in Er. injection Er as <-. rewrite (put_at _ _ _ a E). f_equal. destruct H as [H|[H|H]].
  - exfalso. apply H. now left.
  - eapply plain_fix; eauto.
  - apply fitted_fix in H. congruence.
Qed.
Lemma fit_refs_series n refs : forall st, map series (fst (fit_refs n refs st)) = map series st.
Proof.
  induction refs as [|r rs IH]; intros st; cbn [fit_refs fst]; auto.
  destruct (nth_error st r) as [b|] eqn:Er; [|auto]. destruct (fit_asset n b) as [b'|e] eqn:F; [|auto]. rewrite IH.
  apply fit_series in F. clear -F Er. revert r Er. induction st as [|x st IHs]; intros [|r] Er; cbn in *; try discriminate; [congruence|]. f_equal. auto.
Qed.
Lemma fit_refs_length n refs st : List.length (fst (fit_refs n refs st)) = List.length st.
Proof. rewrite <- (map_length series), fit_refs_series. apply map_length. Qed.
Lemma resolve_cons st r rs a : nth_error st r = Some a -> resolve st (r :: rs) = a :: resolve st rs.
Proof. intros E. unfold resolve. cbn [flat_map]. now rewrite E. Qed.

(** the constructor changes the objects as [site_init] says *)
Lemma fit_refs_ok n refs : forall st, Forall (fun r => r < List.length st)%nat refs -> snd (fit_refs n refs st) = None ->
  rmap (fit_asset n) (resolve st refs) = Ok (resolve (fst (fit_refs n refs st)) refs) /\
  forallb (fitted n) (resolve (fst (fit_refs n refs st)) refs) = true.
Proof.
  intros st Hr HN.
  assert (forall rs st0, snd (fit_refs n rs st0) = None -> Forall (fun r => r < List.length st0)%nat rs ->
            forall k a, nth_error st0 k = Some a -> In k rs -> exists a', fit_asset n a = Ok a' /\ nth_error (fst (fit_refs n rs st0)) k = Some a') as G.
  { clear. induction rs as [|r rs IH]; intros st HN Hr k a E I; [contradiction|]. cbn [fit_refs] in *. inversion Hr as [|? ? L Hr']; subst.
    destruct (nth_error st r) as [b|] eqn:Er; [|apply nth_error_None in Er; lia]. destruct (fit_asset n b) as [b'|e] eqn:F; [|discriminate HN].
    assert (Forall (fun r0 => (r0 < List.length (put st r b'))%nat) rs) as Hr2 by (rewrite put_length; exact Hr').
    destruct (Nat.eq_dec k r) as [->|Ne].
    - rewrite E in Er. injection Er as <-. exists b'. split; auto. apply fit_refs_frame; [eapply put_at; eauto|]. right; right. eapply fit_twice; eauto.
    - destruct I as [->|I]; [congruence|]. destruct (IH (put st r b') HN Hr2 k a) as (a' & A1 & A2); auto. { now rewrite put_other. } exists a'. auto. }
  specialize (G refs st HN Hr). set (st' := fst (fit_refs n refs st)) in *.
  assert (forall rs, incl rs refs -> Forall (fun r => r < List.length st)%nat rs -> rmap (fit_asset n) (resolve st rs) = Ok (resolve st' rs) /\ forallb (fitted n) (resolve st' rs) = true) as K.
  { induction rs as [|r rs IH]; intros In1 L; [split; reflexivity|]. inversion L as [|? ? L1 L2]; subst.
    destruct (nth_error st r) as [a|] eqn:E; [|apply nth_error_None in E; lia]. destruct (G r a E (In1 r (or_introl eq_refl))) as (a' & F & E').
    rewrite (resolve_cons _ _ _ _ E), (resolve_cons _ _ _ _ E'). destruct (IH (fun x X => In1 x (or_intror X)) L2) as [R1 R2]. cbn [rmap forallb]. rewrite F, R1, R2.
    destruct (fit_twice _ _ _ F) as [_ ->]. split; reflexivity. }
  apply K; auto. apply incl_refl.
Qed.


(** A [Site] constructor call does to the shared objects what [site_init] (C35) says about the values. *)
Theorem C47_constructor : forall p refs i kw fr il el cons p', Forall (fun r => r < List.length (p_assets p))%nat refs ->
  new_site p refs i kw fr il el cons = (p', Done) ->
  exists d, site_init (resolve (p_assets p) refs) i kw = Ok (d, resolve (p_assets p') refs) /\
    p_next p' = p_next p /\ p_sites p' = p_sites p ++ [mkSiteObject refs d fr il el cons] /\
    (forall k a, nth_error (p_assets p) k = Some a -> ~ In k refs -> nth_error (p_assets p') k = Some a).
Proof.
  intros p refs i kw fr il el cons p' HR H. unfold new_site in H. unfold site_init, validate_interval_data.
  destruct (site_interval_data i) as [d|e]; [|discriminate]. cbn [rbind]. destruct (fit_refs (id_n d) refs (p_assets p)) as [st failed] eqn:F.
  destruct failed as [e|]; [discriminate|]. destruct (custom_data (id_n d) kw) as [custom|e]; [|discriminate].
  destruct (fit_refs_ok (id_n d) refs (p_assets p) HR) as [K1 K2]; [now rewrite F|]. rewrite F in K1, K2. cbn [fst] in K1, K2. rewrite K2 in H. injection H as <-.
  exists (with_custom d custom). rewrite K1. cbn [rbind]. rewrite K2. cbn [rassert rbind p_next p_sites p_assets]. splits; auto.
  intros k a E N. pose proof (fit_refs_frame (id_n d) refs _ k a E (or_introl N)) as G. now rewrite F in G.
Qed.

(** ** Histories *)
(** [later] is harmless for a site with assets [refs] and [n] intervals if it is not a [Site] built, with another number
    of intervals, on a shared asset that carries interval data. *)
Definition harmless (st : list asset) (refs : list nat) (n : nat) (later : call) : Prop :=
  match later with
  | NewSite refs' i _ _ _ _ _ =>
      forall r c d, In r refs -> In r refs' -> nth_error st r = Some (ARenewable c) -> site_interval_data i = Ok d -> id_n d = n
  | _ => True
  end.

Section Keep.
Variables (slv : solver) (refs : list nat) (n : nat).
Definition kept (st st' : list asset) : Prop := forall r a, In r refs -> nth_error st r = Some a -> nth_error st' r = Some a.
Lemma kept_resolve st st' : (forall r, In r refs -> r < List.length st)%nat -> kept st st' -> resolve st' refs = resolve st refs.
Proof.
  intros L K. unfold kept in K. induction refs as [|r rs IH]; auto. destruct (nth_error st r) as [a|] eqn:E.
  - rewrite (resolve_cons _ _ _ _ E), (resolve_cons st' r rs a); [|apply K; [now left|exact E]]. f_equal. apply IH.
    + intros k I. apply L. now right. + intros k b I. apply K. now right.
  - apply nth_error_None in E. specialize (L r (or_introl eq_refl)). lia.
Qed.
Lemma step_keeps p c p' out : step slv p c p' out ->
  (forall r a, In r refs -> nth_error (p_assets p) r = Some a -> fitted n a = true) -> harmless (p_assets p) refs n c -> kept (p_assets p) (p_assets p').
Proof.
  intros S F H r a I E. inversion S; subst; cbn [p_assets]; auto.
  - rewrite nth_error_app1; auto. apply nth_error_Some. congruence.
  - unfold new_site in *. destruct (site_interval_data i) as [d|e] eqn:D; [|now injection H1 as <- _].
    assert (nth_error (fst (fit_refs (id_n d) refs0 (p_assets p))) r = Some a) as K.
    { apply fit_refs_frame; auto. destruct (in_dec Nat.eq_dec r refs0) as [I2|I2]; auto. right. destruct (series a) eqn:Sa; auto. right.
      destruct a; try discriminate. cbn [harmless] in H. rewrite (H r c d I I2 E D). exact (F r _ I E). }
    destruct (fit_refs (id_n d) refs0 (p_assets p)) as [st failed]. cbn [fst] in K. destruct failed; [injection H1 as <- _; exact K|].
    destruct (custom_data (id_n d) kw); [|injection H1 as <- _; exact K]. destruct (forallb _ _); injection H1 as <- _; exact K.
Qed.
Lemma step_sites p c p' out k s : step slv p c p' out -> nth_error (p_sites p) k = Some s -> nth_error (p_sites p') k = Some s.
Proof.
  intros S E. inversion S; subst; cbn [p_sites]; auto. unfold new_site in *. destruct (site_interval_data i) as [d|e]; [|now injection H0 as <- _].
  destruct (fit_refs (id_n d) refs0 (p_assets p)) as [st failed]. destruct failed; [injection H0 as <- _; exact E|].
  destruct (custom_data (id_n d) kw); [|injection H0 as <- _; exact E]. destruct (forallb _ _); injection H0 as <- _; [|exact E].
  cbn [p_sites]. rewrite nth_error_app1; auto. apply nth_error_Some. congruence.
Qed.
Lemma kept_harmless st st' c : (forall r, In r refs -> r < List.length st)%nat -> kept st st' -> harmless st refs n c -> harmless st' refs n c.
Proof.
  intros L K. destruct c; cbn [harmless]; auto. intros H r c d I I2 E D. destruct (nth_error st r) as [a|] eqn:Es.
  - apply (H r c d); auto. rewrite (K r a I Es) in E. congruence.
  - apply nth_error_None in Es. specialize (L r I). lia.
Qed.
Lemma steps_keep h p p' : steps slv p h p' -> (forall r, In r refs -> r < List.length (p_assets p))%nat ->
  (forall r a, In r refs -> nth_error (p_assets p) r = Some a -> fitted n a = true) -> Forall (fun co => harmless (p_assets p) refs n (fst co)) h ->
  kept (p_assets p) (p_assets p') /\ forall k s, nth_error (p_sites p) k = Some s -> nth_error (p_sites p') k = Some s.
Proof.
  induction 1 as [p|p c out p1 rest p2 S Ss IH]; intros L F H; [split; [red; auto|auto]|]. inversion H as [|? ? H1 H2]; subst. cbn [fst] in H1.
  pose proof (step_keeps _ _ _ _ S F H1) as K.
  assert (forall r, In r refs -> r < List.length (p_assets p1))%nat as L1.
  { intros r I. specialize (L r I). destruct (nth_error (p_assets p) r) as [a|] eqn:E; [|apply nth_error_None in E; lia]. apply nth_error_Some. rewrite (K r a I E). discriminate. }
  destruct IH as [K2 S2]; auto.
  - intros r a I E. destruct (nth_error (p_assets p) r) as [b|] eqn:Eb; [|apply nth_error_None in Eb; specialize (L r I); lia]. rewrite (K r b I Eb) in E. injection E as <-. eauto.
  - eapply Forall_impl; [|exact H2]. intros co. now apply kept_harmless.
  - split; [|intros k s E; apply S2; eapply step_sites; eauto]. intros r a I E. apply K2; auto.
Qed.
End Keep.

Lemma optimize_any_base slv base c assets cons obj fl : blind slv -> optimize slv base c assets cons obj fl = optimize slv 0 c assets cons obj fl.
Proof. intros B. exact (optimize_shift slv 0 base c assets cons obj fl B). Qed.

(** Whatever happened before the site was built ([p] is any state of the process) and whatever harmless calls were made since, [optimize] gives what it
    gives in a new process where only this site has been built. *)
Theorem C47_history : forall slv p refs i kw fr il el cons p1 after p2 obj fl p3 out, blind slv ->
  step slv p (NewSite refs i kw fr il el cons) p1 Done ->
  steps slv p1 after p2 ->
  (forall d, site_interval_data i = Ok d -> Forall (fun co => harmless (p_assets p1) refs (id_n d) (fst co)) after) ->
  step slv p2 (Optimize (List.length (p_sites p)) obj fl) p3 out ->
  exists d assets, site_init (resolve (p_assets p) refs) i kw = Ok (d, assets) /\
    forall dq, data_numbers d = Some dq -> out = as_outcome (optimize slv 0 (mkSiteCfg dq fr il el) assets cons obj fl).
Proof.
  intros slv p refs i kw fr il el cons p1 after p2 obj fl p3 out B S1 Ss H S2.
  inversion S1 as [|? ? ? ? ? ? ? ? ? ? HR HN| | |]; subst. destruct (C47_constructor _ _ _ _ _ _ _ _ _ HR HN) as (d & E & _ & Es & _).
  exists d, (resolve (p_assets p1) refs). split; auto. intros dq Hd.
  unfold new_site in HN. destruct (site_interval_data i) as [d0|e] eqn:D; [|discriminate]. specialize (H d0 eq_refl).
  destruct (fit_refs (id_n d0) refs (p_assets p)) as [st failed] eqn:F. destruct failed as [e|]; [discriminate|]. destruct (custom_data (id_n d0) kw) as [custom|e]; [|discriminate].
  destruct (forallb (fitted (id_n d0)) (resolve st refs)) eqn:G; [|discriminate]. injection HN as <-. cbn [p_assets p_sites] in *.
  assert (List.length st = List.length (p_assets p)) as L by (pose proof (fit_refs_length (id_n d0) refs (p_assets p)) as X; now rewrite F in X).
  rewrite Forall_forall in HR.
  destruct (steps_keep slv refs (id_n d0) _ _ _ Ss) as [K1 K2]; cbn [p_assets p_sites] in *; auto.
  - intros r I. rewrite L. auto.
  - intros r a I Ea. rewrite forallb_forall in G. apply G. unfold resolve. apply in_flat_map. exists r. rewrite Ea. split; auto. now left.
  - pose proof (f_equal (fun l => nth_error l (List.length (p_sites p))) Es) as Ek. cbn beta in Ek. rewrite !nth_error_app2, Nat.sub_diag in Ek by lia. cbn in Ek. injection Ek as Ek.
    specialize (K2 (List.length (p_sites p)) (mkSiteObject refs d fr il el cons)). rewrite nth_error_app2, Nat.sub_diag in K2 by lia. cbn [nth_error] in K2. rewrite Ek in K2. specialize (K2 eq_refl).
    inversion S2; subst.
    + match goal with X : nth_error (p_sites p2) _ = Some _ |- _ => rewrite K2 in X; injection X as <- end. cbn [so_data so_freq so_import_limit so_export_limit so_refs so_constraints] in *.
      match goal with X : data_numbers _ = Some _ |- _ => rewrite Hd in X; injection X as <- end. f_equal. rewrite (optimize_any_base slv (p_next p2)) by exact B. f_equal.
      symmetry. symmetry. apply (kept_resolve refs st (p_assets p2)); auto. intros r I. rewrite L. auto.
    + match goal with X : nth_error (p_sites p2) _ = Some _ |- _ => rewrite K2 in X; injection X as <- end. cbn [so_data] in *. congruence.
Qed.

(** ** The program of a run *)
(** the linear program that [optimize] of site [k] hands to the solver in process state [p] *)
Definition program_of (p : process) (k : nat) (obj : objective) (fl : flags) (o : opt) : Prop :=
  exists s d iv, nth_error (p_sites p) k = Some s /\ data_numbers (so_data s) = Some d /\
    build_program (mkSiteCfg d (so_freq s) (so_import_limit s) (so_export_limit s)) (resolve (p_assets p) (so_refs s))
      (so_constraints s) obj fl (new_optimizer (p_next p)) = Ok (iv, o).

Lemma step_next slv p c p' out : step slv p c p' out -> (p_next p <= p_next p')%nat.
Proof.
  intros S. inversion S; subst; cbn [p_next]; try lia.
  - unfold new_site in *. destruct (site_interval_data i) as [d|e]; [|injection H0 as <- _; lia].
    destruct (fit_refs (id_n d) refs (p_assets p)) as [st failed]. destruct failed; [injection H0 as <- _; cbn; lia|].
    destruct (custom_data (id_n d) kw); [|injection H0 as <- _; cbn; lia]. destruct (forallb _ _); injection H0 as <- _; cbn; lia.
  - match goal with X : match ?b with _ => _ end |- _ => destruct b as [[iv o]|e] eqn:B end; [subst|assumption]. apply (mono (new_optimizer (p_next p)) iv o) in B. exact B.
Qed.
Lemma steps_next slv h p p' : steps slv p h p' -> (p_next p <= p_next p')%nat.
Proof. induction 1 as [|p c out p1 rest p2 S Ss IH]; [lia|]. apply step_next in S. lia. Qed.

(** Every variable of the program was made during the call, *)
Theorem C47_own_variables : forall slv p k obj fl p1 out o, step slv p (Optimize k obj fl) p1 out -> program_of p k obj fl o ->
  forall v, In v (all_occurrences o) -> (p_next p <= v_id v < p_next p1)%nat.
Proof.
  intros slv p k obj fl p1 out o S (s & d & iv & E & D & B) v I. split; [exact (program_lower _ _ _ _ _ _ _ _ B v I)|].
  inversion S; subst; match goal with X : nth_error (p_sites p) k = Some _ |- _ => rewrite E in X; injection X as <- end; [|congruence].
  match goal with X : data_numbers _ = Some ?d' |- _ => rewrite D in X; injection X as <- end. rewrite B in *. subst. cbn [p_next]. exact (program_upper _ _ _ _ _ _ _ _ B v I).
Qed.
(** so no variable of an earlier run, of this site or of another, occurs in it. *)
Theorem C47_no_earlier_variables : forall slv p k obj fl p1 out h q k' obj' fl' q1 out' o o',
  step slv p (Optimize k obj fl) p1 out -> steps slv p1 h q -> step slv q (Optimize k' obj' fl') q1 out' ->
  program_of p k obj fl o -> program_of q k' obj' fl' o' ->
  forall v w, In v (all_occurrences o) -> In w (all_occurrences o') -> v_id v <> v_id w.
Proof.
  intros slv p k obj fl p1 out h q k' obj' fl' q1 out' o o' S H S' P P' v w Iv Iw. pose proof (C47_own_variables _ _ _ _ _ _ _ _ S P v Iv).
  pose proof (C47_own_variables _ _ _ _ _ _ _ _ S' P' w Iw). apply steps_next in H. lia.
Qed.

(** The same site, in two states of the process in which its assets are the same, gives the same program: same names, bounds, coefficients
    and constraints, only the identities of the variables are moved. *)
Definition renumber (f : nat -> nat) (o : opt) : opt := so (fun v => f (v_id v)) f o.
Theorem C47_same_program : forall p q k obj fl o, program_of p k obj fl o -> (p_next p <= p_next q)%nat ->
  (forall s, nth_error (p_sites p) k = Some s -> nth_error (p_sites q) k = Some s /\ resolve (p_assets q) (so_refs s) = resolve (p_assets p) (so_refs s)) ->
  program_of q k obj fl (renumber (fun i => i + (p_next q - p_next p))%nat o).
Proof.
  intros p q k obj fl o (s & d & iv & E & D & B) L K. destruct (K s E) as [E2 A]. set (dd := (p_next q - p_next p)%nat).
  pose proof (program_shift dd (mkSiteCfg d (so_freq s) (so_import_limit s) (so_export_limit s)) (resolve (p_assets p) (so_refs s)) (so_constraints s) obj fl (p_next p)) as S.
  rewrite B in S. exists s, d. eexists. splits; eauto. rewrite A. replace (p_next q) with (p_next p + dd)%nat by (unfold dd; lia). exact S.
Qed.
Lemma renumber_same f o : map v_name (all_occurrences (renumber f o)) = map v_name (all_occurrences o) /\ List.length (o_cons (renumber f o)) = List.length (o_cons o) /\
  (forall s, feasible s (renumber f o) <-> feasible (fun i => s (f i)) o) /\ (forall s, objective_value s (renumber f o) = objective_value (fun i => s (f i)) o).
Proof.
  change (renumber f o) with (ro f o). splits.
  - rewrite occurrences_re, map_map. reflexivity.
  - cbn. apply map_length.
  - intros s. apply feasible_re.
  - intros s. apply objective_re.
Qed.
