(** Vocabulary for the properties of the display of an optimization. *)
From Coq Require Import List ZArith Bool Arith.
From Verif Require Import PzModel PzSpec HkModel HkSpec VbModel.
Import ListNotations.
Open Scope Z_scope.

(** What a reader of the time understands, in hundredths of a second, and the unit of its last digit. *)
Definition hundredths (t : shown) : Z :=
  match t with
  | SecCent s c => 100 * s + c
  | MinSecCent m s c => 100 * (60 * m + s) + c
  | HourMinSec h m s => 100 * (3600 * h + 60 * m + s)
  | DayHourMin d h m => 100 * (86400 * d + 3600 * h + 60 * m)
  end.
Definition resolution (t : shown) : Z := match t with SecCent _ _ | MinSecCent _ _ _ => 1 | HourMinSec _ _ _ => 100 | DayHourMin _ _ _ => 6000 end.
(** Every number but the leading one is below what makes one of the next unit, and the leading one is not 0
    unless it is that of the seconds. *)
Definition proper (t : shown) : Prop :=
  match t with
  | SecCent s c => 0 <= s < 60 /\ 0 <= c < 100
  | MinSecCent m s c => 1 <= m < 60 /\ 0 <= s < 60 /\ 0 <= c < 100
  | HourMinSec h m s => 1 <= h < 24 /\ 0 <= m < 60 /\ 0 <= s < 60
  | DayHourMin d h m => 1 <= d /\ 0 <= h < 24 /\ 0 <= m < 60
  end.
