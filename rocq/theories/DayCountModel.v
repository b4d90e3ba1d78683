(** Model of tf_quant_finance/datetime/daycounts.py over exact rationals
    (float rounding not modelled).  Definitions only. *)
From Coq Require Import ZArith QArith List Bool.
From Verif Require Import DateModel.
Open Scope Z_scope.

(** daycounts.py 55-92 *)
Definition actual_360 (s e : date) : Q := inject_Z (days_until s e) / inject_Z 360.

(** daycounts.py 95-132 *)
Definition actual_365_fixed (s e : date) : Q := inject_Z (days_until s e) / inject_Z 365.

(** daycounts.py 135-180 *)
Definition actual_365_actual (s e : date) : option Q :=
  match date_add s (mk_period 1 DAY), date_add e (mk_period 1 DAY) with
  | Some s', Some e' =>
      let denominator := if 0 <? leap_days_between s' e' then 366 else 365 in
      Some (inject_Z (days_until s e) / inject_Z denominator)%Q
  | _, _ => None
  end.

(** daycounts.py 183-251 *)
Definition thirty_360_isda (s e : date) : Q :=
  let d1_days := Z.min (day s) 30 in
  let d2_days := if (d1_days =? 30) && (day e =? 31) then 30 else day e in
  let day_difference := d2_days - d1_days in
  let month_difference := (month e - month s) * 30 in
  let year_difference := (year e - year s) * 360 in
  (inject_Z (day_difference + month_difference + year_difference) / inject_Z 360)%Q.

(** daycounts.py 254-300 *)
Definition actual_actual_isda (s e : date) : option Q :=
  match days_in_leap_and_nonleap_years_between s e with
  | Some (l, n) => Some (inject_Z l / inject_Z 366 + inject_Z n / inject_Z 365)%Q
  | None => None
  end.
