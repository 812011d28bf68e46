(** Properties C21-C23 and C65: arithmetic and comparison of single samples. *)
From Coq Require Import Reals Lra.
From Flocq Require Import IEEE754.BinarySingleNaN.
From Verif Require Import Base Num NumXR NumB64.
From Verif.Model Require Import Signal.
From Verif.Proofs Require Import SampleFacts NegFacts.

(** ** C21 (exact arithmetic) *)
Theorem C21_time_intersect : forall t v d t' v' d' : R, d <> d' ->
  exists u w, time_intersect (mkSample (Fin t) (Fin v) (Fin d)) (mkSample (Fin t') (Fin v') (Fin d')) = Fin u /\
    interpolate (mkSample (Fin t) (Fin v) (Fin d)) (Fin u) = Fin w /\
    interpolate (mkSample (Fin t') (Fin v') (Fin d')) (Fin u) = Fin w /\
    (forall u' : R, interpolate (mkSample (Fin t) (Fin v) (Fin d)) (Fin u') =
                    interpolate (mkSample (Fin t') (Fin v') (Fin d')) (Fin u') -> u' = u).
Proof. exact intersect_correct. Qed.
Print Assumptions C21_time_intersect.

Theorem C21_time_intersect_inside : forall t v d v' d' u : R, (t < u)%R ->
  (v < v' /\ v' + d' * (u - t) < v + d * (u - t))%R \/ (v' < v /\ v + d * (u - t) < v' + d' * (u - t))%R ->
  exists c, time_intersect (mkSample (Fin t) (Fin v) (Fin d)) (mkSample (Fin t) (Fin v') (Fin d')) = Fin c /\
    (t < c < u)%R.
Proof. exact intersect_inside. Qed.
Print Assumptions C21_time_intersect_inside.

Example C21_case : (1 < 3)%R /\ (2 < 4 /\ 4 + (-1) * (3 - 1) < 2 + 1 * (3 - 1))%R.
Proof. lra. Qed.

(** ** C22 (exact arithmetic); the integral is the Riemann integral of the interpolated line. *)
Theorem C22_area_is_integral : forall t v d u : R, (t < u)%R ->
  exists a, area (mkSample (Fin t) (Fin v) (Fin d)) (Fin u) = Fin a /\
    forall (pr : Riemann_integrable (fun x => v + d * (x - t))%R t u), RiemannInt pr = a.
Proof. exact area_integral. Qed.
Print Assumptions C22_area_is_integral.

Theorem C22_area_before : forall t v d u : R, (u <= t)%R -> area (mkSample (Fin t) (Fin v) (Fin d)) (Fin u) = Fin 0.
Proof. exact area_zero. Qed.
Print Assumptions C22_area_before.

(** The integral of C22 exists. *)
Theorem C22_integrable : forall t v d u : R, (t < u)%R ->
  exists pr : Riemann_integrable (fun x => v + d * (x - t))%R t u, True.
Proof. exact line_integrable. Qed.
Print Assumptions C22_integrable.

Example C22_case : area (mkSample (Fin 1) (Fin 2) (Fin 3)) (Fin 3) = Fin 10.
Proof. exact area_case. Qed.

(** ** C23 (binary64) *)
Theorem C23_sample_order : forall a b c : sample B64,
  isnum (s_value a) = true -> isnum (s_value b) = true -> isnum (s_value c) = true ->
  sample_lt a a = false /\
  (sample_lt a b = true -> sample_lt b c = true -> sample_lt a c = true) /\
  (sample_lt a b = true -> sample_lt b a = false) /\
  (sample_lt a b = false -> sample_lt b c = false -> sample_lt a c = false) /\
  sample_gt a b = sample_lt b a /\ sample_le a b = negb (sample_gt a b) /\ sample_ge a b = negb (sample_lt a b) /\
  (sample_lt a b = nltb (s_value a) (s_value b)) /\ (sample_le a b = nleb (s_value a) (s_value b)) /\
  (sample_ge a b = nleb (s_value b) (s_value a)) /\ (sample_gt a b = nltb (s_value b) (s_value a)).
Proof. exact (sample_order (F := B64)). Qed.
Print Assumptions C23_sample_order.

Example C23_case : isnum (dbl 3 0) = true /\ isnum (B754_infinity true : B64) = true /\ isnum (dbl 5 (-3)) = true.
Proof. repeat split; vm_compute; reflexivity. Qed.

(** ** C65.  In binary64 the two lines agree up to the sign of a zero ([==]); in exact arithmetic
    they are equal. *)
Theorem C65_neg_line : forall (s : sample B64) (t : B64),
  s_time (sample_neg s) = s_time s /\
  isnum (interpolate (sample_neg s) t) = isnum (interpolate s t) /\
  (isnum (interpolate s t) = true -> neqb (interpolate (sample_neg s) t) (nopp (interpolate s t)) = true).
Proof. exact C65_lemma. Qed.
Print Assumptions C65_neg_line.

Theorem C65_neg_line_exact : forall (s : sample XR) (t : XR), interpolate (sample_neg s) t = nopp (interpolate s t).
Proof. exact C65_exact_lemma. Qed.
Print Assumptions C65_neg_line_exact.

Theorem C65_neg_involutive_and_antitone : forall a b : sample B64,
  sample_neg (sample_neg a) = a /\ sample_lt (sample_neg a) (sample_neg b) = sample_lt b a /\
  s_value (sample_neg a) = nopp (s_value a) /\ s_deriv (sample_neg a) = nopp (s_deriv a).
Proof. exact C65_order_lemma. Qed.
Print Assumptions C65_neg_involutive_and_antitone.

Example C65_case : interpolate (sample_neg (mkSample (Fin 1) (Fin 2) (Fin 3))) (Fin 3) = Fin (-8).
Proof. exact C65_case_lemma. Qed.
