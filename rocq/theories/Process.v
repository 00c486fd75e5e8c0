(** * Process: a Python process that builds assets and sites and optimises them, in any order.

    Objects are shared by reference: a site holds the list of asset objects it was given
    (energypylinear/assets/site.py:377 [self.assets = assets]) and [validate_interval_data]
    (site.py:42-89) changes the interval data of these objects in place.
    pulp variables are fresh objects; [p_next] counts those made so far. *)
From Verif Require Import Base Pulp Params Optimizer Types Assets EVs Site Constraints Objectives Extract Pipeline IntervalData.
Open Scope Q_scope.

(** site.py:336-402: what a [Site] object holds (the references of its assets, its own interval data, its settings) *)
Record site_object := mkSiteObject {
  so_refs : list nat;
  so_data : idata pynum;
  so_freq : freq;
  so_import_limit : Q;
  so_export_limit : Q;
  so_constraints : list constraint }.

Record process := mkProcess {
  p_next : nat;                 (* variables created so far *)
  p_assets : list asset;        (* asset objects, a reference is a position *)
  p_sites : list site_object }.
Definition fresh_process : process := mkProcess 0 [] [].

Definition resolve (st : list asset) (refs : list nat) : list asset :=
  flat_map (fun r => match nth_error st r with Some a => [a] | None => [] end) refs.
Fixpoint put {A} (st : list A) (r : nat) (a : A) : list A :=
  match st, r with
  | [], _ => []
  | _ :: t, O => a :: t
  | x :: t, S r' => x :: put t r' a
  end.

(** site.py:51-70: the loop over the assets changes them one after the other; if one raises the earlier ones stay changed *)
Fixpoint fit_refs (n : nat) (refs : list nat) (st : list asset) : list asset * option pyerr :=
  match refs with
  | [] => (st, None)
  | r :: rs =>
      match nth_error st r with
      | None => fit_refs n rs st
      | Some a => match fit_asset n a with
                  | Err e => (st, Some e)
                  | Ok a' => fit_refs n rs (put st r a')
                  end
      end
  end.

(** The calls a user can make. [Other]: anything else that creates pulp variables. *)
Inductive call :=
| Make (a : asset)                                  (* an asset constructor without interval data, see Ctors *)
| NewSite (refs : list nat) (i : site_input) (kw : list (string * kwarg)) (fr : freq) (il el : Q) (cons : list constraint)
| Optimize (site : nat) (obj : objective) (fl : flags)
| Other.
Inductive outcome := Done | Raised (e : pyerr) | Returned (r : sim_result).
Definition as_outcome (r : res sim_result) : outcome := match r with Ok x => Returned x | Err e => Raised e end.

(** site.py:336-402 and 42-89 *)
Definition new_site (p : process) (refs : list nat) (i : site_input) (kw : list (string * kwarg)) (fr : freq) (il el : Q)
    (cons : list constraint) : process * outcome :=
  match site_interval_data i with
  | Err e => (p, Raised e)
  | Ok d =>
      let (st, failed) := fit_refs (id_n d) refs (p_assets p) in
      let changed := mkProcess (p_next p) st (p_sites p) in
      match failed with
      | Some e => (changed, Raised e)
      | None =>
          match custom_data (id_n d) kw with
          | Err e => (changed, Raised e)
          | Ok custom =>
              if forallb (fitted (id_n d)) (resolve st refs)
              then (mkProcess (p_next p) st (p_sites p ++ [mkSiteObject refs (with_custom d custom) fr il el cons]), Done)
              else (changed, Raised AssertionErr)
          end
      end
  end.

(** One call.  site.py:443-533 for [Optimize]: it only creates variables; when it raises, some have been created.
    Not-a-number in the data of a site is outside of the model of [optimize]: then the outcome is left open. *)
Inductive step (slv : solver) : process -> call -> process -> outcome -> Prop :=
| step_make p a :
    step slv p (Make a) (mkProcess (p_next p) (p_assets p ++ [a]) (p_sites p)) Done
| step_site p refs i kw fr il el cons p' out :
    Forall (fun r => r < List.length (p_assets p))%nat refs ->
    new_site p refs i kw fr il el cons = (p', out) ->
    step slv p (NewSite refs i kw fr il el cons) p' out
| step_optimize p k obj fl s d next :
    nth_error (p_sites p) k = Some s -> data_numbers (so_data s) = Some d ->
    match build_program (mkSiteCfg d (so_freq s) (so_import_limit s) (so_export_limit s)) (resolve (p_assets p) (so_refs s))
            (so_constraints s) obj fl (new_optimizer (p_next p)) with
    | Ok (_, o) => next = o_next o
    | Err _ => (p_next p <= next)%nat
    end ->
    step slv p (Optimize k obj fl) (mkProcess next (p_assets p) (p_sites p))
      (as_outcome (optimize slv (p_next p) (mkSiteCfg d (so_freq s) (so_import_limit s) (so_export_limit s))
                     (resolve (p_assets p) (so_refs s)) (so_constraints s) obj fl))
| step_optimize_nan p k obj fl s next out :
    nth_error (p_sites p) k = Some s -> data_numbers (so_data s) = None -> (p_next p <= next)%nat -> out <> Done ->
    step slv p (Optimize k obj fl) (mkProcess next (p_assets p) (p_sites p)) out
| step_other p next : (p_next p <= next)%nat ->
    step slv p Other (mkProcess next (p_assets p) (p_sites p)) Done.

Inductive steps (slv : solver) : process -> list (call * outcome) -> process -> Prop :=
| steps_nil p : steps slv p [] p
| steps_cons p c out p1 rest p2 : step slv p c p1 out -> steps slv p1 rest p2 -> steps slv p ((c, out) :: rest) p2.
