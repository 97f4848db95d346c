(** C25: timeouts are computed correctly. [ns] is the time as a number of nanoseconds. *)
From Coq Require Import ZArith.
From Verif Require Import Time TimeProofs.
Open Scope Z_scope.

(** Adding [ms] milliseconds gives exactly the time that much later, normalised.
    The bound on the sum is needed, see the next theorem. *)
Theorem C25_add_exact : forall t ms,
  normalised t -> 0 <= ms -> ms + tv_nsec t / 1000000 < 2 ^ 32 ->
  ns (ts_add (Some t) ms) = ns t + ms * 1000000 /\ normalised (ts_add (Some t) ms).
Proof. exact ts_add_ok. Qed.
Print Assumptions C25_add_exact.

Theorem C25_add_null_exact : forall ms, 0 <= ms < 2 ^ 32 ->
  ns (ts_add None ms) = ms * 1000000 /\ normalised (ts_add None ms).
Proof. exact ts_add_null. Qed.
Print Assumptions C25_add_null_exact.

Example C25_add_example :
  ts_add (Some {| tv_sec := 10; tv_nsec := 999999999 |}) 5001 = {| tv_sec := 16; tv_nsec := 999999 |}.
Proof. reflexivity. Qed.

(** Without the bound it is false: a timeout close to the 32-bit maximum can give a time
    in the past. *)
Theorem C25_add_exact_refuted : exists t ms,
  normalised t /\ 0 <= ms < 2 ^ 32 /\ ns (ts_add (Some t) ms) < ns t.
Proof.
  exists {| tv_sec := 10; tv_nsec := 999000000 |}, 4294967295.
  repeat split; reflexivity || discriminate.
Qed.
Print Assumptions C25_add_exact_refuted.

(** Comparison is the order of time. *)
Theorem C25_cmp_exact : forall a b, normalised a -> normalised b ->
  time_cmp a b = Z.sgn (ns a - ns b).
Proof. exact time_cmp_ok. Qed.
Print Assumptions C25_cmp_exact.

Example C25_cmp_example :
  time_cmp {| tv_sec := 3; tv_nsec := 5 |} {| tv_sec := 3; tv_nsec := 4 |} = 1.
Proof. reflexivity. Qed.

(** Subtraction is exact, a negative difference is reported by a special value which no
    non-negative difference has. *)
Theorem C25_sub_exact : forall a b, normalised a -> normalised b ->
  if ns b <=? ns a
  then ns (time_sub a b) = ns a - ns b /\ normalised (time_sub a b)
  else time_sub a b = {| tv_sec := 0; tv_nsec := -1 |}.
Proof. exact time_sub_ok. Qed.
Print Assumptions C25_sub_exact.

Theorem C25_sub_ms_exact : forall a b, normalised a -> normalised b ->
  (ns a - ns b) / 1000000 < 2 ^ 31 ->
  time_sub_ms a b = if ns b <=? ns a then (ns a - ns b) / 1000000 else -1.
Proof. exact time_sub_ms_ok. Qed.
Print Assumptions C25_sub_ms_exact.

(** What is left of a timeout at the moment it was set is the whole timeout. *)
Theorem C25_remaining : forall t ms, normalised t -> 0 <= ms < 2 ^ 31 ->
  ms + tv_nsec t / 1000000 < 2 ^ 32 ->
  time_sub_ms (ts_add (Some t) ms) t = ms.
Proof. exact timeout_remaining. Qed.
Print Assumptions C25_remaining.

Example C25_remaining_example :
  time_sub_ms (ts_add (Some {| tv_sec := 1700000000; tv_nsec := 123456789 |}) 10000)
              {| tv_sec := 1700000000; tv_nsec := 123456789 |} = 10000.
Proof. reflexivity. Qed.

(** The [int] result wraps for differences of more than 24.8 days. *)
Theorem C25_sub_ms_exact_refuted : exists a b,
  normalised a /\ normalised b /\ ns b <= ns a /\ time_sub_ms a b < 0.
Proof.
  exists {| tv_sec := 2147484; tv_nsec := 0 |}, {| tv_sec := 0; tv_nsec := 0 |}.
  repeat split; reflexivity || discriminate.
Qed.
Print Assumptions C25_sub_ms_exact_refuted.
