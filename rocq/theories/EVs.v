(** * EVs: energypylinear/assets/evs.py *)
From Verif Require Import Base Pulp Params Optimizer Types.
Open Scope Q_scope.
Open Scope string_scope.

(** [charge_events[i, event]] on the transposed matrix, assets/evs.py:320, 450, 661 *)
Definition event_at (rows : list (list Q)) (i e : nat) : res Q :=
  match nth_error rows e with
  | Some row => nth_res row i
  | None => Err IndexErr
  end.

Definition show_bool (b : bool) : string := if b then "True" else "False".

(** The variables of one (charge event, charger) pair: assets/evs.py:316-405.
    [soc]: the state of charge values of the charge event.  The quantities that are not variables are given
    as int 0 and coerced to 0.0 by the field type [pulp.LpVariable | float] (evs.py:104-110); the binaries stay int. *)
Definition ev_pair (c : evs_cfg) (i : nat) (f : freq) (fl : flags) (create_discharge is_spill : bool)
    (e : nat) (ec : charge_event_cfg) (soc0 soc1 : fval) (k : nat) (cc : charger_cfg) : M oneint :=
  let name := "i:" ++ show i ++ ",asset:" ++ ev_name c ++ ",charge-event:" ++ show e
              ++ ",charger:" ++ cg_name cc ++ ",is_spill:" ++ show_bool is_spill in
  pair <- (if limit_charge_variables_to_valid_events fl then
             ce <- lift (event_at (ev_events c) i e) ;;
             if Qeq_bool ce 1 then
               x <- continuous ("electric_charge_mwh," ++ name) (Some 0) (Some (mw_to_mwh f (cg_max_mw cc))) ;;
               b <- binary ("electric_charge_binary," ++ name) ;;
               ret (FVar x, FVar b)
             else ret (FFloat 0, FInt 0)
           else
             x <- continuous ("electric_charge_mwh," ++ name) (Some 0) (Some (mw_to_mwh f (cg_max_mw cc))) ;;
             b <- binary ("electric_charge_binary," ++ name) ;;
             ret (FVar x, FVar b)) ;;
  dpair <- (if (create_discharge && allow_evs_discharge fl)%bool then
              x <- continuous ("electric_discharge_mwh," ++ name) (Some 0) (Some (mw_to_mwh f (cg_max_mw cc))) ;;
              b <- binary ("electric_discharge_binary," ++ name) ;;
              ret (FVar x, FVar b)
            else ret (FFloat 0, FInt 0)) ;;
  loss <- continuous ("electric_loss_mwh," ++ name) (Some 0) None ;;
  let r := mkEvOI c i e ec k cc (fst pair) (snd pair) (fst dpair) (snd dpair) soc0 soc1 (FVar loss) in
  ret (if is_spill then OIEvSpill r else OIEv r).

(** One charge event: assets/evs.py:299-316 *)
Definition ev_event (c : evs_cfg) (chargers : list charger_cfg) (i : nat) (f : freq) (fl : flags)
    (create_soc create_discharge is_spill : bool) (e : nat) (ec : charge_event_cfg) : M (list oneint) :=
  let name := "i:" ++ show i ++ ",asset:" ++ ev_name c ++ ",charge_event:" ++ ce_name ec in
  socs <- (if create_soc then
             a <- continuous ("initial_soc_mwh," ++ name) (Some 0) (Some (ce_capacity_mwh ec)) ;;
             b <- continuous ("final_soc_mwh," ++ name) (Some 0) (Some (ce_capacity_mwh ec)) ;;
             ret (FVar a, FVar b)
           else ret (FFloat 0, FFloat 0)) ;;
  forM (enumerate chargers) (fun kc =>
    ev_pair c i f fl create_discharge is_spill e ec (fst socs) (snd socs) (fst kc) (snd kc)).

(** assets/evs.py:261-406 *)
Definition evs_one_interval_for (c : evs_cfg) (chargers : list charger_cfg) (i : nat) (f : freq) (fl : flags)
    (create_soc create_discharge is_spill : bool) : M (list oneint) :=
  ls <- forM (enumerate (ev_event_cfgs c)) (fun ee =>
          ev_event c chargers i f fl create_soc create_discharge is_spill (fst ee) (snd ee)) ;;
  ret (List.concat ls).

(** assets/evs.py:688-723 *)
Definition evs_one_interval (c : evs_cfg) (i : nat) (f : freq) (fl : flags) : M (list oneint) :=
  evs <- evs_one_interval_for c (ev_chargers c) i f fl true true false ;;
  spill <- evs_one_interval_for c (ev_spill_chargers c) i f fl false false true ;;
  ret (evs ++ spill)%list.

(** ** Array representation: assets/evs.py:152-177.  Arrays are functions of the indices,
    initialised with 0.0; [n_events] and [n_chargers] are the shape. *)
Record evs_array := mkEvsArray {
  ea_cfg : evs_cfg;
  ea_soc0 : nat -> fval; ea_soc1 : nat -> fval;
  ea_charge : nat -> nat -> fval; ea_charge_bin : nat -> nat -> fval;
  ea_discharge : nat -> nat -> fval; ea_discharge_bin : nat -> nat -> fval;
  ea_loss : nat -> nat -> fval }.
Definition n_events (c : evs_cfg) : nat := List.length (ev_event_cfgs c).
Definition n_chargers (c : evs_cfg) : nat := List.length (ev_chargers c).

Definition upd1 (f : nat -> fval) (e : nat) (x : fval) : nat -> fval :=
  fun e' => if Nat.eqb e' e then x else f e'.
Definition upd2 (f : nat -> nat -> fval) (e k : nat) (x : fval) : nat -> nat -> fval :=
  fun e' k' => if (Nat.eqb e' e && Nat.eqb k' k)%bool then x else f e' k'.

Definition empty_array (c : evs_cfg) : evs_array :=
  let z1 := fun _ : nat => FFloat 0 in
  let z2 := fun _ _ : nat => FFloat 0 in
  mkEvsArray c z1 z1 z2 z2 z2 z2 z2.

(** assets/evs.py:226-241: the body of the filling loop, with numpy's bounds check *)
Definition fill_array (a : evs_array) (r : ev_oi) : res evs_array :=
  let e := eoi_event r in
  let k := eoi_charger r in
  if (Nat.ltb e (n_events (ea_cfg a)) && Nat.ltb k (n_chargers (ea_cfg a)))%bool then
    Ok (mkEvsArray (ea_cfg a)
          (upd1 (ea_soc0 a) e (eoi_soc0 r)) (upd1 (ea_soc1 a) e (eoi_soc1 r))
          (upd2 (ea_charge a) e k (eoi_charge r)) (upd2 (ea_charge_bin a) e k (eoi_charge_bin r))
          (upd2 (ea_discharge a) e k (eoi_discharge r)) (upd2 (ea_discharge_bin a) e k (eoi_discharge_bin r))
          (upd2 (ea_loss a) e k (eoi_loss r)))
  else Err IndexErr.
Fixpoint fill_all (a : evs_array) (l : list ev_oi) : res evs_array :=
  match l with [] => Ok a | r :: rs => let! a' := fill_array a r in fill_all a' rs end.

(** the filtered objects are EVOneInterval / EVSpillOneInterval *)
Definition as_ev (x : oneint) : res ev_oi :=
  match x with OIEv r | OIEvSpill r => Ok r | _ => Err Unmodelled end.

(** assets/evs.py:180-258 *)
Definition create_evs_array (iv : interval_vars) (i : Z) (name : string) (is_spill : bool) : res evs_array :=
  let! found := filter_objective_variables iv i (Some (if is_spill then KEvSpill else KEv)) (Some name) in
  let! rs := rmap as_ev found in
  let! r0 := hd_res rs in
  let c := eoi_cfg r0 in
  check Nat.eqb (List.length rs) (if is_spill then n_events c else n_events c * n_chargers c)%nat ;;
  fill_all (empty_array c) rs.

(** ** Constraints *)
(** assets/evs.py:439-450: one (continuous, binary) pair *)
Definition constrain_pair (c : evs_cfg) (f : freq) (cc : charger_cfg) (i e : nat) (x b : fval) : M unit :=
  match x with
  | FVar _ =>
      constrain_max x b (mw_to_mwh f (cg_max_mw cc)) ;;;
      constrain_min x b (mw_to_mwh f (cg_min_mw cc)) ;;;
      ce <- lift (event_at (ev_events c) i e) ;;
      constrain (cle (fexpr b) (econst ce))
  | _ => ret tt
  end.
(** assets/evs.py:409-450 *)
Definition constrain_charge_discharge_min_max (a : evs_array) (c : evs_cfg) (f : freq)
    (chargers : list charger_cfg) (i : nat) (allow_discharge : bool) : M unit :=
  forM_ (enumerate (ev_event_cfgs c)) (fun ee =>
    forM_ (enumerate chargers) (fun kc =>
      constrain_pair c f (snd kc) i (fst ee) (ea_charge a (fst ee) (fst kc)) (ea_charge_bin a (fst ee) (fst kc)) ;;;
      if allow_discharge
      then constrain_pair c f (snd kc) i (fst ee) (ea_discharge a (fst ee) (fst kc)) (ea_discharge_bin a (fst ee) (fst kc))
      else ret tt)).

(** assets/evs.py:453-482.  Row and column slices have the shape of the array. *)
Definition constrain_single_charger_charge_event (a : evs_array) (c : evs_cfg) : M unit :=
  forM_ (enumerate (ev_event_cfgs c)) (fun ee =>
    constrain (cle (esum (map (fun k => fexpr (ea_charge_bin a (fst ee) k)) (seq 0 (n_chargers (ea_cfg a)))
                          ++ map (fun k => fexpr (ea_discharge_bin a (fst ee) k)) (seq 0 (n_chargers (ea_cfg a))))%list)
                   (econst 1))) ;;;
  forM_ (enumerate (ev_chargers c)) (fun kc =>
    constrain (cle (esum (map (fun e => fexpr (ea_charge_bin a e (fst kc))) (seq 0 (n_events (ea_cfg a)))
                          ++ map (fun e => fexpr (ea_discharge_bin a e (fst kc))) (seq 0 (n_events (ea_cfg a))))%list)
                   (econst 1))).

(** assets/evs.py:485-523 *)
Definition sum_row (f : nat -> nat -> fval) (e n : nat) : aexpr := esum (map (fun k => fexpr (f e k)) (seq 0 n)).
Definition constrain_losses (a : evs_array) (e : nat) (ec : charge_event_cfg) : M unit :=
  forM_ (enumerate (ev_chargers (ea_cfg a))) (fun kc =>
    constrain (ceq (escale (esum [fexpr (ea_charge a e (fst kc))]) (1 - ce_efficiency_pct ec))
                   (esum [fexpr (ea_loss a e (fst kc))]))).
Definition constrain_charge_event_electricity_balance (a sp : evs_array) : M unit :=
  forM_ (enumerate (ev_event_cfgs (ea_cfg a))) (fun ee =>
    let e := fst ee in
    let na := n_chargers (ea_cfg a) in
    let ns := n_chargers (ea_cfg sp) in
    constrain (ceq (esub (esub (esub (eadd (eadd (fexpr (ea_soc0 a e)) (sum_row (ea_charge a) e na))
                                           (sum_row (ea_charge sp) e ns))
                                     (sum_row (ea_discharge a) e na))
                               (sum_row (ea_discharge sp) e ns))
                         (sum_row (ea_loss a) e na))
                   (fexpr (ea_soc1 a e))) ;;;
    constrain_losses a e (snd ee) ;;;
    constrain_losses sp e (snd ee)).

(** assets/evs.py:526-543 *)
Fixpoint connect_socs (new old : list fval) : M unit :=
  match new, old with
  | [], [] => ret tt
  | x :: new', y :: old' =>
      (match x, y with
       | FVar a, FVar b => constrain (ceq (evar a) (evar b))
       | _, _ => ret tt
       end) ;;; connect_socs new' old'
  | _, _ => raise ValueErr
  end.
Definition constrain_connection_charge_events (old new : evs_array) : M unit :=
  connect_socs (map (ea_soc0 new) (seq 0 (n_events (ea_cfg new))))
               (map (ea_soc1 old) (seq 0 (n_events (ea_cfg old)))).

(** assets/evs.py:725-784 *)
Definition evs_constrain_within (c : evs_cfg) (iv : interval_vars) (i : nat) (f : freq) (fl : flags) : M unit :=
  a <- lift (create_evs_array iv (Z.of_nat i) (ev_name c) false) ;;
  constrain_charge_discharge_min_max a c f (ev_chargers c) i (allow_evs_discharge fl) ;;;
  sp <- lift (create_evs_array iv (Z.of_nat i) (ev_name c) true) ;;
  constrain_charge_discharge_min_max sp c f (ev_spill_chargers c) i false ;;;
  constrain_single_charger_charge_event a c ;;;
  constrain_charge_event_electricity_balance a sp ;;;
  match i with
  | O => ret tt
  | S j => old <- lift (create_evs_array iv (Z.of_nat j) (ev_name c) false) ;;
           constrain_connection_charge_events old a
  end.

(** assets/evs.py:546-561, 786-799.  A state of charge that is not a variable would make
    [0 == 0] a Python bool, which pulp rejects. *)
Definition soc_equals (x : fval) (q : Q) : M unit :=
  match x with
  | FVar v => constrain (ceq (evar v) (econst q))
  | _ => raise TypeErr
  end.
Definition evs_constrain_after (c : evs_cfg) (iv : interval_vars) : M unit :=
  initial <- lift (create_evs_array iv 0 (ev_name c) false) ;;
  final <- lift (create_evs_array iv (-1) (ev_name c) false) ;;
  forM_ (enumerate (ev_event_cfgs c)) (fun ee =>
    soc_equals (ea_soc0 initial (fst ee)) 0 ;;;
    soc_equals (ea_soc1 final (fst ee)) (ce_capacity_mwh (snd ee))).
