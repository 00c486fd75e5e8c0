(** * SpecPlot: what plotting may do to a results table *)
From Verif Require Import Base Params Types Extract Objectives Terms Accounting Plot.
Open Scope Q_scope.
Open Scope string_scope.

Definition among (names : list string) (n : string) : bool := existsb (String.eqb n) names.
(** the columns that are not called [names], in their order *)
Definition other_columns (names : list string) (r : frame) : frame := filter (fun nc => negb (among names (fst nc))) r.
(** no column is lost, and those not called [names] stay as they are; no other columns are added *)
Definition keeps (names : list string) (r r' : frame) : Prop :=
  other_columns names r' = other_columns names r /\ incl (columns r) (columns r').
(** the columns plot functions add *)
Definition helper_columns : list string := ["Index"; "index"; "import-export-balance"; "net-battery-charge"].
(** the low temperature columns that plotting a heat pump rounds *)
Definition low_temperature_columns (name : string) : list string :=
  ["spill-low_temperature_load_mwh"; "site-low_temperature_load_mwh"; name ++ "-low_temperature_load_mwh";
   "site-low_temperature_generation_mwh"; "spill-low_temperature_generation_mwh"; "valve-low_temperature_generation_mwh"].
Definition touched (p : plot_call) : list string :=
  match p with
  | PlotEvs _ _ => []
  | PlotHeatPump name => (helper_columns ++ low_temperature_columns name)%list
  | _ => helper_columns
  end.
(** the table after a plot, whether it returned or raised, and after any number of them *)
Definition after (p : plot_call) (r : frame) : frame := fst (plot p r).
Definition after_all (ps : list plot_call) (r : frame) : frame := fold_left (fun r p => after p r) ps r.
Definition touched_by (ps : list plot_call) : list string := flat_map touched ps.
(** what a plot says: it returns, or raises *)
Definition outcome (p : plot_call) (r : frame) : res unit := snd (plot p r).
(** no heat pump is called "total" *)
Definition no_total (p : plot_call) : Prop := p <> PlotHeatPump "total".
(** a table of n rows *)
Definition table_with (r : frame) (n : nat) : Prop := r <> [] /\ forall col cells, In (col, cells) r -> List.length cells = n.
(** two columns whose numbers differ by at most e *)
Definition close_cells (e : Q) (a b : list cell) : Prop :=
  Forall2 (fun x y => match x, y with Some p, Some q => Qabs (p - q) <= e | None, None => True | _, _ => False end) a b.
Definition close_columns (e : Q) (names : list string) (r r' : frame) : Prop :=
  forall n a, In n names -> assoc n r = Some a -> exists b, assoc n r' = Some b /\ close_cells e a b.

(** a custom term of an account that reads none of the columns [names] *)
Definition reads_not (names : list string) (v : string) : Prop := forall n, In n names -> ends_with v n = false.
Definition term_avoids (names : list string) (t : term) : Prop :=
  reads_not names (t_variable t) /\ match t_interval_data t with Some n => ~ In ("site-" ++ n) names | None => True end.
Definition side_avoids (names : list string) (x : term_or_number) : Prop :=
  match x with TNumber _ => True | TTerm t => ~ In ("site-" ++ t_variable t) names end.
Definition avoids (names : list string) (t : one_term) : Prop :=
  match t with
  | TSimple t => term_avoids names t
  | TTwo t => side_avoids names (w_a t) /\ side_avoids names (w_b t)
  | TMany t => reads_not names (t_variable (m_variables t))
  end.
Definition custom_avoids (names : list string) (ts : option (list term_arg)) : Prop :=
  match ts with None => True | Some args => forall arg t x, In arg args -> term_factory arg = Ok (t, x) -> avoids names t end.
