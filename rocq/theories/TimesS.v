(** How a reader takes times. *)
From Coq Require Import String NArith ZArith QArith List Bool.
From Verif Require Import Text.
Import ListNotations.
Open Scope list_scope.
Open Scope N_scope.

(** ** Times in words *)
Definition MINUTE : N := 60.
Definition HOUR : N := 60 * MINUTE.
Definition DAY : N := 24 * HOUR.
Definition YEAR : N := 365 * DAY + DAY / 4.
Definition MONTH : N := 3044 * DAY / 100.

(** The names of the units, and the seconds of each. *)
Definition unit_names : list (text * N) :=
  [(tx "year", YEAR); (tx "years", YEAR); (tx "month", MONTH); (tx "months", MONTH); (tx "day", DAY); (tx "days", DAY);
   (tx "h", HOUR); (tx "m", MINUTE); (tx "s", 1)].
Fixpoint unit_secs (us : list (text * N)) (u : text) : option N :=
  match us with
  | [] => None
  | (v, n) :: us' => if text_eqb v u then Some n else unit_secs us' u
  end.

(** A word: digits and then the name of a unit. *)
Fixpoint number_of (acc : N) (w : text) : N * text :=
  match w with
  | c :: w' => if (48 <=? c) && (c <=? 57) then number_of (10 * acc + (c - 48)) w' else (acc, w)
  | [] => (acc, [])
  end.
Definition read_word (w : text) : option N :=
  match w with
  | c :: _ => if (48 <=? c) && (c <=? 57)
              then let (n, u) := number_of 0 w in option_map (fun x => n * x) (unit_secs unit_names u)
              else None
  | [] => None
  end.
(** The seconds of all the words together. *)
Fixpoint total (ws : list text) : option N :=
  match ws with
  | [] => Some 0
  | w :: ws' => match read_word w, total ws' with Some a, Some b => Some (a + b) | _, _ => None end
  end.
Definition read_duration (t : text) : option N := total (split_on SP t).

(** The words in order: of each unit no more than there are in the next larger one, and none for 0. *)
Definition word (n : N) (one more : text) : list text :=
  if n =? 0 then [] else if n =? 1 then [tx "1" ++ one] else [show_N n ++ more].
Definition calendar (secs y mo d h m s : N) : Prop :=
  secs = y * YEAR + mo * MONTH + d * DAY + h * HOUR + m * MINUTE + s
  /\ mo < 12 /\ d < 31 /\ h < 24 /\ m < 60 /\ s < 60.
Definition words (y mo d h m s : N) : list text :=
  word y (tx "year") (tx "years") ++ word mo (tx "month") (tx "months") ++ word d (tx "day") (tx "days")
  ++ word h (tx "h") (tx "h") ++ word m (tx "m") (tx "m") ++ word s (tx "s") (tx "s").

(** ** Seconds with one decimal *)
(** Digits, a point, one digit and an s: how many tenths of a second. *)
Definition read_tenths (t : text) : option N :=
  match split_on 46 t with
  | [a; b] =>
      match a, number_of 0 a, b with
      | _ :: _, (n, []), [c; 115] => if (48 <=? c) && (c <=? 57) then Some (10 * n + (c - 48)) else None
      | _, _, _ => None
      end
  | _ => None
  end.
(** Nanoseconds in seconds. *)
Definition seconds (d : N) : Q := (Z.of_N d # 1000000000)%Q.
