(** What a user expects of the polarmetrics, without the helpers of the model. *)
From Coq Require Import Reals.
From Flocq Require Import Core IEEE754.BinarySingleNaN.
From Verif Require Import Base Float PolModel.

(** Day [d] of the [y]-th year of the series, counted from its first year (years have 365 days). *)
Definition day_number (y d : Z) : Z := 365 * y + d.

(** The days of the year that lose a day on the way to radians and back. *)
Definition lost_days : list Z := [63; 121; 126; 237; 242; 247; 252].

(** The phenological year of a day, when years start on day [start] of the year. *)
Definition season_of (start ce : Z) : Z := (ce - start) / 365.

(** Consecutive days of a series: in order, at most [gap] apart. *)
Fixpoint days_from (gap prev : Z) (l : list Z) : Prop :=
  match l with [] => True | d :: r => prev <= d <= prev + gap /\ days_from gap d r end.
Definition days_in_order (gap : Z) (l : list Z) : Prop :=
  match l with [] => True | d :: r => days_from gap d r end.

(** Running sums of float values. *)
Fixpoint run_sums (c : f32) (l : list f32) : list f32 :=
  match l with [] => [] | v :: r => f32_add c v :: run_sums (f32_add c v) r end.
Definition sums (l : list f32) : list f32 :=
  match l with [] => [] | v :: r => v :: run_sums v r end.

(** An entry agrees with another one up to the cumulated share. *)
Definition same_but_cum (p q : polar) : Prop := q = with_cum p (p_cum q).

(** atan2 as the C standard has it: of no number no number, otherwise between -pi and pi. *)
Definition atan2_nan (L : libm) : Prop := m_atan2 L B754_nan B754_nan = B754_nan.
Definition atan2_range (L : libm) : Prop :=
  forall y x, (is_nan y = true \/ is_nan x = true -> m_atan2 L y x = B754_nan) /\
    (is_nan y = false -> is_nan x = false ->
     is_finite (m_atan2 L y x) = true /\ (- B2R pi64 <= B2R (m_atan2 L y x) <= B2R pi64)%R).
(** cos and sin are at most 1 in size. *)
Definition trig_range (L : libm) : Prop :=
  forall x, is_finite x = true ->
    is_finite (m_cos L x) = true /\ (Rabs (B2R (m_cos L x)) <= 1)%R /\
    is_finite (m_sin L x) = true /\ (Rabs (B2R (m_sin L x)) <= 1)%R.

(** An interpolated series of [ny] years as the interpolation step makes it: days of a 365-day calendar, [step] days
    apart, short values. *)
Definition legal_obs (year_min ny : Z) (o : obs) : Prop :=
  1 <= o_doy o <= 365 /\ o_ce o = 365 * o_year o + o_doy o /\ 1 <= year_min <= o_year o /\
  o_year o < year_min + ny /\ o_year o <= 9999 /\ in_short (o_val o).
Fixpoint every_step (step : Z) (l : list obs) : Prop :=
  match l with
  | [] => True
  | o :: r => match r with [] => True | q :: _ => o_ce q = o_ce o + step /\ every_step step r end
  end.
Definition legal_series (step year_min ny : Z) (l : list obs) : Prop :=
  Forall (legal_obs year_min ny) l /\ every_step step l.

(** The day of an observation in the metrics: seven days of the year come out one day early. *)
Definition back (d : Z) : Z := if existsb (Z.eqb d) lost_days then d - 1 else d.
Definition day_of (year_min : Z) (o : obs) : Z := 365 * (o_year o - year_min) + back (o_doy o).

(** The thresholds as documented: 0 < start <= mid <= end < 1. *)
Definition thresholds_ok (k : pol_par) : Prop :=
  is_finite (k_start k) = true /\ is_finite (k_mid k) = true /\ is_finite (k_end k) = true /\
  (0 < B2R (k_start k))%R /\ (B2R (k_start k) <= B2R (k_mid k))%R /\ (B2R (k_mid k) <= B2R (k_end k))%R /\ (B2R (k_end k) < 1)%R.

(** What was written for a metric in a year. *)
Definition written (ms : list metric) (bands : list (list Z)) (m : metric) (y v : Z) : Prop :=
  exists b, In (m, b) (combine ms bands) /\ get_at b y = Some v.

(** The order of the dates of a season. *)
Definition date_rank (m : metric) : option Z :=
  match m with DEM => Some 0 | DSS => Some 1 | DMS => Some 2 | DES => Some 3 | DLM => Some 4 | _ => None end.
(** The date and the value of an event. *)
Inductive event : metric -> metric -> Prop :=
| ev_dem : event DEM VEM | ev_dss : event DSS VSS | ev_dms : event DMS VMS
| ev_dps : event DPS VPS | ev_des : event DES VES | ev_dlm : event DLM VLM.
(** A length and the dates it lies between. *)
Inductive span : metric -> metric -> metric -> Prop :=
| sp_lgs : span LGS DSS DES | sp_lts : span LTS DEM DLM | sp_lgv : span LGV DEV DLV.

(** A pixel with data and legal parameters: the claims below are about these. *)
Definition legal_pixel (k : pol_par) (nodata year_min : Z) (l : list obs) : Prop :=
  thresholds_ok k /\ 1 <= k_step k <= 364 /\ 1 <= k_ny k <= 88 /\ in_short nodata /\
  legal_series (k_step k) year_min (k_ny k) l /\ (exists o, In o l /\ o_val o <> nodata).
