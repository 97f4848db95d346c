(** struct timespec arithmetic, src/common.c 1337-1442.
    [tv_sec] is a 64-bit time_t and never comes near its limits, so it is an unbounded [Z]
    here; the 32-bit [add_ms] and the [int] result of sr_time_sub_ms() do wrap around. *)
From Coq Require Import ZArith Bool.
Open Scope Z_scope.

Record timespec := { tv_sec : Z; tv_nsec : Z }.

Definition two32z : Z := 4294967296.
Definition u32z (z : Z) : Z := z mod two32z.
(** Conversion of a long to int (two's complement). *)
Definition to_int (z : Z) : Z := (z + 2147483648) mod two32z - 2147483648.

(** sr_time_ts_add(), src/common.c 1365-1385; [None] is a NULL [ts].  [/] and [%] of C on
    non-negative numbers. *)
Definition ts_add (ts : option timespec) (add_ms : Z) : timespec :=
  let ret := match ts with Some t => t | None => {| tv_sec := 0; tv_nsec := 0 |} end in
  if add_ms =? 0 then ret
  else
    let '(add_ms, nsec) :=
      if tv_nsec ret =? 0 then (add_ms, tv_nsec ret)
      else (u32z (add_ms + Z.quot (tv_nsec ret) 1000000), Z.rem (tv_nsec ret) 1000000) in
    {| tv_nsec := nsec + u32z (Z.rem add_ms 1000 * 1000000);
       tv_sec := tv_sec ret + Z.quot add_ms 1000 |}.

(** sr_time_cmp(), src/common.c 1387-1405. *)
Definition time_cmp (a b : timespec) : Z :=
  if tv_sec a >? tv_sec b then 1
  else if tv_sec a <? tv_sec b then -1
  else if tv_nsec a >? tv_nsec b then 1
  else if tv_nsec a <? tv_nsec b then -1
  else 0.

(** sr_time_sub(), src/common.c 1407-1429. *)
Definition time_sub (a b : timespec) : timespec :=
  if (tv_sec a <? tv_sec b) || ((tv_sec a =? tv_sec b) && (tv_nsec a <? tv_nsec b))
  then {| tv_sec := 0; tv_nsec := -1 |}
  else if tv_nsec a <? tv_nsec b
  then {| tv_sec := tv_sec a - tv_sec b - 1; tv_nsec := tv_nsec a + 1000000000 - tv_nsec b |}
  else {| tv_sec := tv_sec a - tv_sec b; tv_nsec := tv_nsec a - tv_nsec b |}.

(** sr_time_sub_ms(), src/common.c 1431-1441. *)
Definition time_sub_ms (a b : timespec) : Z :=
  let r := time_sub a b in
  if (tv_sec r =? 0) && (tv_nsec r =? -1) then -1
  else to_int (tv_sec r * 1000 + Z.quot (tv_nsec r) 1000000).
