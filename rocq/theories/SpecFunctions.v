(** * SpecFunctions: objectives with max/min terms

    Besides simple terms an objective can hold two kinds of function terms: the larger (smaller) of two numbers,
    one of them at least being what the site imports or exports, in each interval; and the largest (smallest) of a constant and
    one quantity of some parts of the site, over all intervals. *)
From Verif Require Import Base Pulp Params Optimizer Types Spec SpecReport Extract SpecRun Constraints Objectives SpecTerms.
From Coq Require Import Qminmax Qabs.
Open Scope Q_scope.
Open Scope string_scope.

Definition biggest (x : Q) (l : list Q) : Q := fold_right Qmax x l.
Definition least (x : Q) (l : list Q) : Q := fold_right Qmin x l.

(** ** Single values

    A simple term adds up the quantities of a part; an extreme is taken over the single values. A battery, boiler, ... has one value
    (zero if it has no such quantity), an EVs asset one for each event and charger. The site has no value for
    five of the quantities. *)
Definition site_without : list string :=
  [ "electric_generation_mwh"; "high_temperature_generation_mwh"; "low_temperature_generation_mwh"; "electric_charge_mwh"; "electric_discharge_mwh" ].
Definition pair_quantity (d : dispatch) (t : nat) (attr : string) (c : evs_cfg) (e k : nat) : Q :=
  if attr =? "electric_charge_mwh" then d_ev_charge d (ev_name c) e k t
  else if attr =? "electric_discharge_mwh" then d_ev_discharge d (ev_name c) e k t
  else if attr =? "electric_loss_mwh" then d_ev_loss d (ev_name c) e k t
  else if attr =? "initial_soc_mwh" then d_ev_soc0 d (ev_name c) e t
  else if attr =? "final_soc_mwh" then d_ev_soc1 d (ev_name c) e t else 0.
Definition spill_quantity (d : dispatch) (t : nat) (attr : string) (c : evs_cfg) (e : nat) : Q :=
  if attr =? "electric_charge_mwh" then d_spill_charge d (ev_name c) e t
  else if attr =? "electric_loss_mwh" then d_spill_loss d (ev_name c) e t else 0.
Definition singles := nat -> string -> piece -> list Q.
Definition single (d : dispatch) (t : nat) (attr : string) (p : piece) : list Q :=
  match p with
  | PSite => if existsb (String.eqb attr) site_without then [] else [quantity d t attr PSite]
  | PAsset a => [quantity d t attr p]
  | PEv c => flat_map (fun e => map (pair_quantity d t attr c e) (seq 0 (List.length (ev_chargers c)))) (seq 0 (List.length (ev_event_cfgs c)))
  | PEvSpill c => map (spill_quantity d t attr c) (seq 0 (List.length (ev_event_cfgs c)))
  end.
(** the single values the results table shows; those of an EVs asset are not shown *)
Definition shown (r : sim_result) (t : nat) (attr : string) (p : piece) : list Q :=
  match p with
  | PSite => if existsb (String.eqb attr) site_without then [] else [reported r t attr PSite]
  | PAsset a => [reported r t attr p]
  | _ => []
  end.

(** ** Two numbers in each interval *)
(** a coefficient inside of the two operands is not looked at *)
Definition operand_value (q : readings) (t : nat) (x : term_or_number) : Q :=
  match x with TNumber n => n | TTerm k => q t (t_variable k) PSite end.
Definition of_two (w : two_term) : Q -> Q -> Q := if w_function w =? "max_two_variables" then Qmax else Qmin.
Definition two_value (q : readings) (c : site_cfg) (w : two_term) (t : nat) : Q :=
  of_two w (operand_value q t (w_a w)) (operand_value q t (w_b w)) * data_value (sc_idata c) (w_interval_data w) t * w_coefficient w.

(** ** Many values over all intervals *)
(** given a name, the type is not looked at (unless it is "*": then the name is not) *)
Definition many_picks (k : term) (p : piece) : bool :=
  if opt_eqb (t_asset_type k) "*" then true
  else match t_asset_name k with None => type_picks (t_asset_type k) p | Some n => n =? piece_name p end.
Definition many_values (v : singles) (c : site_cfg) (assets : list asset) (m : many_term) : list Q :=
  flat_map (fun t => flat_map (v t (t_variable (m_variables m))) (filter (many_picks (m_variables m)) (pieces assets))) (seq 0 (n_intervals c)).
Definition of_many (m : many_term) : Q -> list Q -> Q := if m_function m =? "max_many_variables" then biggest else least.
Definition many_value (v : singles) (c : site_cfg) (assets : list asset) (m : many_term) : Q :=
  of_many m (m_constant m) (many_values v c assets m) * m_coefficient m.

(** ** The objective *)
Definition term_value (q : readings) (v : singles) (c : site_cfg) (assets : list asset) (k : one_term) : Q :=
  match k with
  | TSimple k => horizon c (term_at q c assets k)
  | TTwo w => horizon c (two_value q c w)
  | TMany m => many_value v c assets m
  end.
Definition objective_sum (q : readings) (v : singles) (c : site_cfg) (assets : list asset) (ks : list one_term) : Q :=
  Qsum (map (term_value q v c assets) ks).

(** ** The terms meant *)
Definition grid_operand (x : term_or_number) : Prop :=
  match x with TNumber _ => True | TTerm k => In (t_variable k) ["import_power_mwh"; "export_power_mwh"] end.
(** A largest value is only kept down by a coefficient that is not negative: see C04. *)
Definition usual_term (k : one_term) : Prop :=
  match k with
  | TSimple k => plain_term k
  | TTwo w => w_type w = "complex" /\ In (w_function w) ["max_two_variables"; "min_two_variables"] /\ grid_operand (w_a w) /\ grid_operand (w_b w)
  | TMany m => m_type m = "complex" /\ In (m_function m) ["max_many_variables"; "min_many_variables"] /\ In (t_variable (m_variables m)) plain_quantities /\
      (m_function m = "max_many_variables" -> 0 <= m_coefficient m)
  end.
(** the user's M is at least the gap between any two of the numbers compared *)
Definition covered (q : readings) (v : singles) (c : site_cfg) (assets : list asset) (k : one_term) : Prop :=
  match k with
  | TSimple _ => True
  | TTwo w => forall t, (t < n_intervals c)%nat -> Qabs (operand_value q t (w_a w) - operand_value q t (w_b w)) <= w_M w
  | TMany m => forall x y, In x (m_constant m :: many_values v c assets m) -> In y (m_constant m :: many_values v c assets m) -> x - y <= m_M m
  end.
(** no function term picks (a part of) an EVs asset *)
Definition shown_term (assets : list asset) (k : one_term) : Prop :=
  match k with
  | TMany m => forall p, In p (pieces assets) -> many_picks (m_variables m) p = true -> match p with PEv _ | PEvSpill _ => False | _ => True end
  | _ => True
  end.
(** What any solution keeps within M: an M too small forbids dispatches, it does not make the term wrong. *)
Definition within_M (q : readings) (v : singles) (c : site_cfg) (assets : list asset) (k : one_term) : Prop :=
  match k with
  | TSimple _ => True
  | TTwo w => forall t, (t < n_intervals c)%nat -> Qabs (operand_value q t (w_a w) - operand_value q t (w_b w)) <= w_M w
  | TMany m => m_function m = "min_many_variables" -> let l := many_values v c assets m in
      forall x, In x (m_constant m :: l) -> x == least (m_constant m) l \/ x - least (m_constant m) l <= m_M m
  end.
