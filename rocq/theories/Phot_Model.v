(* Model of /repo/skbeam/core/fitting/lineshapes.py: gamma_dist, nbinom_dist, poisson_dist, and of
   /repo/skbeam/core/correlation.py: auto_corr_scat_factor, over the reals.
   K is the mean count, M the number of modes, a positive integer as documented.  On integers scipy's gamma(n + 1) is n!
   and exp(gammaln(n + 1)) too; scipy's gamma distribution with shape M and scale K / M has the density written here. *)
From Coq Require Import Reals Arith.
Local Open Scope R_scope.

(** poisson_dist 473-501 at one bin value *)
Definition poisson_dist (n : nat) (K : R) : R := exp (- K) * K ^ n / INR (fact n).
(** nbinom_dist 428-470: gammaln(bin + M), gammaln(bin + 1), gammaln(M) *)
Definition gammaln (n : nat) : R := ln (INR (fact (n - 1))).
Definition nbinom_dist (n : nat) (K : R) (M : nat) : R :=
  let co_eff := exp (gammaln (n + M) - gammaln (n + 1) - gammaln M) in
  co_eff * (INR M / (K + INR M)) ^ M * (K / (INR M + K)) ^ n.
(** gamma_dist 395-425: scipy.stats.gamma(M, 0, K / M).pdf *)
Definition gamma_pdf (a : nat) (scale x : R) : R :=
  if Rlt_dec x 0 then 0 else (x / scale) ^ (a - 1) * exp (- (x / scale)) / (scale * INR (fact (a - 1))).
Definition gamma_dist (x K : R) (M : nat) : R := gamma_pdf M (K / INR M) x.
(** auto_corr_scat_factor 432-480 *)
Definition auto_corr_scat_factor (lag beta relaxation_rate baseline : R) : R := beta * exp (-2 * relaxation_rate * lag) + baseline.
