(** * SpecDicts: what a dictionary of an objective term says
    Written from the documentation of the terms (objectives.py:40-150), not from the code that reads the dictionaries. *)
From Verif Require Import Base Params Types Objectives Terms.
Open Scope Q_scope.
Open Scope string_scope.

(** The dictionary gives this text / optional text / number under this key, or leaves it out and there is this default. *)
Definition text (d : dict) (k : string) (default : option string) (s : string) : Prop :=
  assoc k d = Some (VStr s) \/ assoc k d = None /\ default = Some s.
Definition optional_text (d : dict) (k : string) (o : option string) : Prop :=
  match o with
  | Some s => assoc k d = Some (VStr s)
  | None => assoc k d = Some VNone \/ assoc k d = None
  end.
Definition number (d : dict) (k : string) (default : option Q) (q : Q) : Prop :=
  assoc k d = Some (VNum q) \/ assoc k d = None /\ default = Some q.
(** no other keys *)
Definition keys_among (ks : list string) (d : dict) : Prop := forall k v, In (k, v) d -> In k ks.

(** A simple term: only the variable is required; the coefficient is 1 unless given. *)
Definition simple_says (d : dict) (t : term) : Prop :=
  keys_among ["variable"; "asset_type"; "interval_data"; "asset_name"; "coefficient"; "type"] d
  /\ text d "variable" None (t_variable t)
  /\ optional_text d "asset_type" (t_asset_type t)
  /\ optional_text d "interval_data" (t_interval_data t)
  /\ optional_text d "asset_name" (t_asset_name t)
  /\ number d "coefficient" (Some 1) (t_coefficient t)
  /\ text d "type" (Some "simple") (t_type t).
(** A nested term is a dictionary or a term object. *)
Definition term_says (v : pyval) (t : term) : Prop :=
  v = VTerm t \/ exists d, v = VDict d /\ simple_says d t.
(** One side of a two variable term: a number or a term. *)
Definition side_says (v : pyval) (x : term_or_number) : Prop :=
  match x with
  | TNumber q => v = VNum q
  | TTerm t => term_says v t
  end.
Definition two_says (d : dict) (t : two_term) : Prop :=
  keys_among ["function"; "a"; "b"; "M"; "interval_data"; "coefficient"; "type"] d
  /\ text d "function" None (w_function t)
  /\ (exists v, assoc "a" d = Some v /\ side_says v (w_a t))
  /\ (exists v, assoc "b" d = Some v /\ side_says v (w_b t))
  /\ number d "M" None (w_M t)
  /\ optional_text d "interval_data" (w_interval_data t)
  /\ number d "coefficient" (Some 1) (w_coefficient t)
  /\ text d "type" (Some "complex") (w_type t).
Definition many_says (d : dict) (t : many_term) : Prop :=
  keys_among ["function"; "variables"; "M"; "constant"; "coefficient"; "type"] d
  /\ text d "function" None (m_function t)
  /\ (exists v, assoc "variables" d = Some v /\ term_says v (m_variables t))
  /\ number d "M" None (m_M t)
  /\ number d "constant" (Some 0) (m_constant t)
  /\ number d "coefficient" (Some 1) (m_coefficient t)
  /\ text d "type" (Some "complex") (m_type t).

(** The name of the function decides the kind of term. *)
Definition two_name (f : string) : Prop := contains "two_variables" f = true.
Definition many_name (f : string) : Prop := contains "two_variables" f = false /\ contains "many_variables" f = true.
Definition describes (d : dict) (t : one_term) : Prop :=
  match t with
  | TSimple t => assoc "function" d = None /\ simple_says d t
  | TTwo t => two_name (w_function t) /\ two_says d t
  | TMany t => many_name (m_function t) /\ many_says d t
  end.
(** A term whose function fits its kind: all that [term_factory] makes, and the objects users build with the functions
    the library has. *)
Definition proper_term (t : one_term) : Prop :=
  match t with
  | TSimple _ => True
  | TTwo t => two_name (w_function t)
  | TMany t => many_name (m_function t)
  end.
