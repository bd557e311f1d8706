(** Specification of quality words, in terms of division and remainder. *)
From Verif Require Import Base QaiModel.

(** The number stored in [width] bits from position [pos]. *)
Definition field (w pos width : Z) : Z := (w / 2 ^ pos) mod 2 ^ width.

(** Documented layout: first bit and number of bits of each flag. *)
Definition layout (f : flag) : Z * Z :=
  match f with
  | Off => (0, 1) | Cloud => (1, 2) | Shadow => (3, 1) | Snow => (4, 1) | Water => (5, 1)
  | Aerosol => (6, 2) | Subzero => (8, 1) | Saturation => (9, 1) | Lowsun => (10, 1)
  | Illumination => (11, 2) | Slope => (13, 1) | Vaporfill => (14, 1)
  end.
Definition flag_value (f : flag) (w : Z) : Z := field w (fst (layout f)) (snd (layout f)).
Definition flag_max (f : flag) : Z := 2 ^ snd (layout f) - 1.

(** Most restrictive of two states: nodata only when both are nodata, the
    larger (worse) value for all other flags. *)
Definition worst (f : flag) (a b : Z) : Z :=
  match f with Off => Z.min a b | _ => Z.max a b end.

(** The 18 states a user can screen for. *)
Inductive state := S_OFF | S_CLD_OPQ | S_CLD_UNC | S_CLD_CIR | S_SHD | S_SNW | S_WTR
  | S_AOD_FILL | S_AOD_HIGH | S_AOD_INT | S_SUB | S_SAT | S_SUN | S_ILL_SHD | S_ILL_POOR
  | S_ILL_LOW | S_SLP | S_WVP.
Definition applies (s : state) (w : Z) : Prop :=
  match s with
  | S_OFF => flag_value Off w = 1
  | S_CLD_UNC => flag_value Cloud w = 1
  | S_CLD_OPQ => flag_value Cloud w = 2
  | S_CLD_CIR => flag_value Cloud w = 3
  | S_SHD => flag_value Shadow w = 1
  | S_SNW => flag_value Snow w = 1
  | S_WTR => flag_value Water w = 1
  | S_AOD_INT => flag_value Aerosol w = 1
  | S_AOD_HIGH => flag_value Aerosol w = 2
  | S_AOD_FILL => flag_value Aerosol w = 3
  | S_SUB => flag_value Subzero w = 1
  | S_SAT => flag_value Saturation w = 1
  | S_SUN => flag_value Lowsun w = 1
  | S_ILL_LOW => flag_value Illumination w = 1
  | S_ILL_POOR => flag_value Illumination w = 2
  | S_ILL_SHD => flag_value Illumination w = 3
  | S_SLP => flag_value Slope w = 1
  | S_WVP => flag_value Vaporfill w = 1
  end.
Definition selected (s : state) (r : qai_rule) : bool :=
  match s with
  | S_OFF => r_off r | S_CLD_OPQ => r_cld_opq r | S_CLD_UNC => r_cld_unc r
  | S_CLD_CIR => r_cld_cir r | S_SHD => r_shd r | S_SNW => r_snw r | S_WTR => r_wtr r
  | S_AOD_FILL => r_aod_fill r | S_AOD_HIGH => r_aod_high r | S_AOD_INT => r_aod_int r
  | S_SUB => r_sub r | S_SAT => r_sat r | S_SUN => r_sun r | S_ILL_SHD => r_ill_shd r
  | S_ILL_POOR => r_ill_poor r | S_ILL_LOW => r_ill_low r | S_SLP => r_slp r | S_WVP => r_wvp r
  end.

(** The pixel is usable: no selected state applies (and nodata never, for data
    that are not FORCE ARD). *)
Definition usable (w : Z) (r : qai_rule) (is_ard : bool) : Prop :=
  (is_ard = false -> ~ applies S_OFF w) /\
  forall s, selected s r = true -> ~ applies s w.

(** Quality information from level 2 (QAI product or ARD) or from other products. *)
Definition usable_at (w : Z) (r : qai_rule) (l : input_level) : Prop :=
  (l = INP_OTHER -> ~ applies S_OFF w) /\ forall s, selected s r = true -> ~ applies s w.

(** SCREEN_QAI = list of states, in the order of the documented keywords
    NODATA CLOUD_OPAQUE CLOUD_BUFFER CLOUD_CIRRUS CLOUD_SHADOW SNOW WATER
    AOD_FILL AOD_HIGH AOD_INT SUBZERO SATURATION SUN_LOW ILLUMIN_NONE
    ILLUMIN_POOR ILLUMIN_LOW SLOPED WVP_NONE. *)
Definition states : list state :=
  [S_OFF; S_CLD_OPQ; S_CLD_UNC; S_CLD_CIR; S_SHD; S_SNW; S_WTR; S_AOD_FILL; S_AOD_HIGH;
   S_AOD_INT; S_SUB; S_SAT; S_SUN; S_ILL_SHD; S_ILL_POOR; S_ILL_LOW; S_SLP; S_WVP].
Definition keyword (code : Z) : option state := get_at states code.

(** Merging any number of words one after the other. *)
Definition merge_all (old : Z) (first : Z) (more : list Z) : outcome Z :=
  fold_left (fun acc w => x <- acc ;; merge_qai old x w) more (Ret first).
