(** What the theorems about RandAugment say, in plain terms. *)
From Coq Require Import Qabs Qround.
From Verif Require Import Prelude ParModel ParSpec.
Local Open Scope Q_scope.

(** A parameter that draws integers from [lo] to [hi]. *)
Definition level (h : heap) (m : sparam) (lo hi : Q) : Prop :=
  valid h m /\ no_inplace_on_lists m /\ drawable h m /\
  forall size vs k, samples_of h m size vs k -> k = KInt /\ Forall (fun v => lo <= v /\ v <= hi) vs.
(** Samples of any size can be drawn from the parameter, and all of them have the property. *)
Definition every_sample (h : heap) (p : sparam) (P : Q -> Prop) : Prop :=
  forall R (g : rng_ops R) size r, sane g -> exists d r', draw_samples g p size h r = Ok (d, h, r') /\ length (d_vals d) = prod size /\ Forall P (d_vals d).
(** Samples that are computed from some drawn level. *)
Definition from_level (lo hi : Q) (P : Q -> Q -> Prop) (v : Q) : Prop := exists x, lo <= x /\ x <= hi /\ P x v.
