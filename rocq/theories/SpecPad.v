(** * SpecPad: leaving a spill and a valve out of a dispatch *)
From Verif Require Import Base Params Types Spec.
Open Scope Q_scope.

(** [d] and [d0] have the same numbers everywhere except at the assets called [names] *)
Definition same_but (names : list string) (d d0 : dispatch) : Prop :=
  (forall t, d_import d t = d_import d0 t) /\ (forall t, d_export d t = d_export d0 t) /\
  (forall nm q t, ~ In nm names -> d_qty d nm q t = d_qty d0 nm q t) /\
  (forall nm e k t, d_ev_charge d nm e k t = d_ev_charge d0 nm e k t /\ d_ev_discharge d nm e k t = d_ev_discharge d0 nm e k t /\
                    d_ev_loss d nm e k t = d_ev_loss d0 nm e k t) /\
  (forall nm e t, d_spill_charge d nm e t = d_spill_charge d0 nm e t /\ d_spill_loss d nm e t = d_spill_loss d0 nm e t /\
                  d_ev_soc0 d nm e t = d_ev_soc0 d0 nm e t /\ d_ev_soc1 d nm e t = d_ev_soc1 d0 nm e t).
(** the grid limits hold and every asset except [sp] and [va] obeys its own rules; the balances may be open *)
Definition scheduled (c : site_cfg) (assets : list asset) (fl : flags) (sp va : string) (d : dispatch) : Prop :=
  (forall t, (t < n_intervals c)%nat -> grid_limits c d t) /\
  (forall a, In a assets -> a <> ASpill sp -> a <> AValve va -> asset_physical a (sc_freq c) fl (n_intervals c) d).
