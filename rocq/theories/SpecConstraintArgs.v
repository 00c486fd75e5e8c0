(** * SpecConstraintArgs: what a constraint dictionary says
    Written from the documentation of Constraint and ConstraintTerm (constraints.py:11-90), not from the code that reads it. *)
From Verif Require Import Base Pulp Params Types Constraints Objectives Terms SpecDicts ConstraintArgs.
Open Scope Q_scope.
Open Scope string_scope.

(** a term: the variable is required, the coefficient is 1 unless given, other keys mean nothing *)
Definition term_reads (d : cdict) (t : cterm) : Prop :=
  let optional k o := match o with Some s => assoc k d = Some (CvStr s) | None => assoc k d = Some CvNone \/ assoc k d = None end in
  assoc "variable" d = Some (CvStr (ct_variable t)) /\
  optional "asset_type" (ct_asset_type t) /\ optional "interval_data" (ct_interval_data t) /\ optional "asset_name" (ct_asset_name t) /\
  (assoc "coefficient" d = Some (CvNum (ct_coefficient t)) \/ assoc "coefficient" d = None /\ ct_coefficient t = 1).
Definition entry_reads (v : cvalue) (e : centry) : Prop :=
  match e with
  | CNumber q => v = CvNum q
  | CTermOf t => v = CvTerm t \/ exists d, v = CvDict d /\ term_reads d t
  end.
(** one entry or a list of entries *)
Definition side_reads (v : cvalue) (l : list centry) : Prop :=
  (exists vs, v = CvList vs /\ Forall2 entry_reads vs l) \/ (exists e, l = [e] /\ entry_reads v e).
Definition sense_word (s : sense) : string := match s with LE => "le" | EQ => "eq" | GE => "ge" end.
Definition is_term (e : centry) : Prop := exists t, e = CTermOf t.
Definition constraint_reads (d : cdict) (k : constraint) : Prop :=
  (exists l, assoc "lhs" d = Some l /\ side_reads l (cn_lhs k)) /\
  (exists r, assoc "rhs" d = Some r /\ side_reads r (cn_rhs k)) /\
  assoc "sense" d = Some (CvStr (sense_word (cn_sense k))) /\
  (if cn_sum k then assoc "interval_aggregation" d = Some (CvStr "sum")
   else assoc "interval_aggregation" d = None \/ assoc "interval_aggregation" d = Some CvNone) /\
  (** some side mentions a variable *)
  Exists is_term (cn_lhs k ++ cn_rhs k).
Definition con_is (x : constraint_arg) (k : constraint) : Prop :=
  match x with ConDict d => constraint_reads d k | ConObject j => j = k end.

(** no text where a number may stand (pydantic reads some texts as numbers; that is not modelled) *)
Definition no_text (v : option cvalue) : Prop := match v with Some (CvStr _) => False | _ => True end.
Definition plain_entry (v : cvalue) : Prop :=
  match v with CvStr _ => False | CvDict d => no_text (assoc "coefficient" d) | _ => True end.
Definition plain_side (v : option cvalue) : Prop :=
  match v with None => True | Some (CvList l) => Forall plain_entry l | Some v => plain_entry v end.
Definition plain_con (x : constraint_arg) : Prop :=
  match x with ConDict d => plain_side (assoc "lhs" d) /\ plain_side (assoc "rhs" d) | ConObject _ => True end.

(** dictionaries for objects *)
Definition opt_value (o : option string) : cvalue := match o with Some s => CvStr s | None => CvNone end.
Definition entry_value (e : centry) : cvalue :=
  match e with
  | CNumber q => CvNum q
  | CTermOf t => CvDict [("variable", CvStr (ct_variable t)); ("asset_type", opt_value (ct_asset_type t)); ("interval_data", opt_value (ct_interval_data t));
                         ("asset_name", opt_value (ct_asset_name t)); ("coefficient", CvNum (ct_coefficient t))]
  end.
Definition as_constraint_dict (k : constraint) : cdict :=
  [("lhs", CvList (map entry_value (cn_lhs k))); ("rhs", CvList (map entry_value (cn_rhs k))); ("sense", CvStr (sense_word (cn_sense k)));
   ("interval_aggregation", if cn_sum k then CvStr "sum" else CvNone)].
(** the objective that an [objective] argument stands for *)
Definition obj_is (x : objective_arg) (obj : objective) : Prop :=
  match x, obj with
  | OName s, ObjName s' => s = s'
  | OTerms ts, ObjTerms ts' => ts = ts'
  | ODict (Some args), ObjTerms ts =>
      Forall2 (fun x t => match x with ArgDict d => describes d t | ArgTerm u => u = t /\ proper_term t end) args ts
  | _, _ => False
  end.
