(** Times in the messages and in the display. *)
From Coq Require Import String NArith ZArith QArith List Bool.
From Verif Require Import Text TimeoutM F64M F32M.
Import ListNotations.
Open Scope list_scope.
Open Scope N_scope.

(** Crate humantime 2.1.0 (Cargo.lock:642-646), [item_plural] and [item] of duration.rs: nothing for a count of 0, else the
    count and the unit. *)
Definition item_plural (unit : text) (n : N) : list text :=
  if n =? 0 then [] else [show_N n ++ unit ++ (if 1 <? n then tx "s" else [])].
Definition item_short (unit : text) (n : N) : list text := if n =? 0 then [] else [show_N n ++ unit].

(** Crate humantime, [FormattedDuration::fmt] of duration.rs, for whole seconds: the items with a space between two.  A year
    is 365.25 days and a month is 30.44 days. *)
Definition format_duration (secs : N) : text :=
  if secs =? 0 then tx "0s"
  else
    let years := secs / 31557600 in
    let ydays := secs mod 31557600 in
    let months := ydays / 2630016 in
    let mdays := ydays mod 2630016 in
    let days := mdays / 86400 in
    let day_secs := mdays mod 86400 in
    let hours := day_secs / 3600 in
    let minutes := day_secs mod 3600 / 60 in
    let seconds := day_secs mod 60 in
    join [SP] (item_plural (tx "year") years ++ item_plural (tx "month") months ++ item_plural (tx "day") days
               ++ item_short (tx "h") hours ++ item_short (tx "m") minutes ++ item_short (tx "s") seconds).

(** src/console.rs:626-632 [style_duration], the text: of nanoseconds.  "We don't want silly precision." *)
Definition duration_text (d : N) : text := format_duration (d / NS).

(** [Duration::as_secs_f32]: the seconds as [f32], plus the nanoseconds as [f32] divided by 10^9 (which is an [f32]). *)
Definition as_secs_f32 (d : N) : Q :=
  rnd32 (rnd32 (inject_Z (Z.of_N (d / NS))) + rnd32 (rnd32 (inject_Z (Z.of_N (d mod NS))) / (1000000000 # 1))).

(** [{:.1}] of a float that is not negative: the nearest number with one decimal, of two the one that ends in an even digit. *)
Definition one_decimal (q : Q) : text :=
  let k := Z.to_N (round_even ((10 # 1) * q)) in show_N (k / 10) ++ tx "." ++ show_N (k mod 10).

(** src/console.rs:620-624 [style_secs], the text: of nanoseconds. *)
Definition secs_text (d : N) : text := one_decimal (as_secs_f32 d) ++ tx "s".
