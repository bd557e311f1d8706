(** Model of src/modules/cross-level/quality-cl.c and of the QAI screening in
    src/modules/higher-level/quality-hl.c.  A QAI word is a 16-bit signed value;
    the brick layer (vshort[0][p]) is the list of words of one image. *)
From Verif Require Import Base.

(** Bit positions: enum-cl.h:98-102 (_QAI_BIT_...). *)
Definition BIT_OFF := 0.  Definition BIT_CLD := 1.  Definition BIT_SHD := 3.
Definition BIT_SNW := 4.  Definition BIT_WTR := 5.  Definition BIT_AOD := 6.
Definition BIT_SUB := 8.  Definition BIT_SAT := 9.  Definition BIT_SUN := 10.
Definition BIT_ILL := 11. Definition BIT_SLP := 13. Definition BIT_WVP := 14.

(** set_qai_to_value: quality-cl.c:57-65 (set_qai, 44-52, is the same on
    vshort[0][p]).  Shifting a negative value left is undefined. *)
Definition set_qai_to_value (value index val bitfields : Z) : outcome Z :=
  let mask := to_short (Z.shiftl 1 bitfields - 1) in
  let cleared := Z.land value (Z.lnot (Z.shiftl mask index)) in
  if val <? 0 then UB
  else Ret (to_short (Z.lor cleared (to_short (Z.shiftl val index)))).

(** get_qai_from_value: quality-cl.c:90-97 (get_qai, 78-85, likewise). *)
Fixpoint ones_loop (bitfields : nat) : Z :=
  match bitfields with
  | O => 0
  | S n => Z.lor (ones_loop n) (to_short (Z.shiftl 1 (Z.of_nat n)))
  end.
Definition get_qai_from_value (value index bitfields : Z) : Z :=
  Z.land (to_short (Z.shiftr value index)) (ones_loop (Z.to_nat bitfields)).

(** The twelve flags. *)
Inductive flag := Off | Cloud | Shadow | Snow | Water | Aerosol | Subzero | Saturation
                | Lowsun | Illumination | Slope | Vaporfill.

(** get_off ... get_vaporfill (_from_value): quality-cl.c:99-241. *)
Definition get_flag (f : flag) (value : Z) : Z :=
  match f with
  | Off => get_qai_from_value value BIT_OFF 1
  | Cloud => get_qai_from_value value BIT_CLD 2
  | Shadow => get_qai_from_value value BIT_SHD 1
  | Snow => get_qai_from_value value BIT_SNW 1
  | Water => get_qai_from_value value BIT_WTR 1
  | Aerosol => get_qai_from_value value BIT_AOD 2
  | Subzero => get_qai_from_value value BIT_SUB 1
  | Saturation => get_qai_from_value value BIT_SAT 1
  | Lowsun => get_qai_from_value value BIT_SUN 1
  | Illumination => get_qai_from_value value BIT_ILL 2
  | Slope => get_qai_from_value value BIT_SLP 1
  | Vaporfill => get_qai_from_value value BIT_WVP 1
  end.

(** set_off ... set_vaporfill (_to_value): quality-cl.c:243-362. *)
Definition set_flag (f : flag) (value val : Z) : outcome Z :=
  match f with
  | Off => set_qai_to_value value BIT_OFF val 1
  | Cloud => set_qai_to_value value BIT_CLD val 2
  | Shadow => set_qai_to_value value BIT_SHD val 1
  | Snow => set_qai_to_value value BIT_SNW val 1
  | Water => set_qai_to_value value BIT_WTR val 1
  | Aerosol => set_qai_to_value value BIT_AOD val 2
  | Subzero => set_qai_to_value value BIT_SUB val 1
  | Saturation => set_qai_to_value value BIT_SAT val 1
  | Lowsun => set_qai_to_value value BIT_SUN val 1
  | Illumination => set_qai_to_value value BIT_ILL val 2
  | Slope => set_qai_to_value value BIT_SLP val 1
  | Vaporfill => set_qai_to_value value BIT_WVP val 1
  end.

(** The same on pixel p of an image: set_off(qai, p, val) etc. *)
Definition set_flag_at (f : flag) (img : list Z) (p val : Z) : outcome (list Z) :=
  w <- of_option (get_at img p) ;;
  w' <- set_flag f w val ;;
  of_option (set_at img p w').

(** merge_qai_from_values: quality-cl.c:375-427, on the word found at pixel p. *)
Definition b2z (b : bool) : Z := if b then 1 else 0.
Definition on (z : Z) : bool := negb (z =? 0).
Definition g_or (f : flag) (a b : Z) : Z := b2z (on (get_flag f a) || on (get_flag f b)).
Definition g_max (f : flag) (a b : Z) : Z :=
  if get_flag f a >? get_flag f b then get_flag f a else get_flag f b.
Definition g_min (f : flag) (a b : Z) : Z :=
  if get_flag f a <? get_flag f b then get_flag f a else get_flag f b.
Definition merge_qai (old a b : Z) : outcome Z :=
  w <- set_flag Off old (b2z (on (get_flag Off a) && on (get_flag Off b))) ;;
  w <- set_flag Cloud w (g_max Cloud a b) ;;
  w <- set_flag Shadow w (g_or Shadow a b) ;;
  w <- set_flag Snow w (g_or Snow a b) ;;
  w <- set_flag Water w (g_or Water a b) ;;
  w <- set_flag Aerosol w (g_max Aerosol a b) ;;
  w <- set_flag Subzero w (g_or Subzero a b) ;;
  w <- set_flag Saturation w (g_or Saturation a b) ;;
  w <- set_flag Lowsun w (g_or Lowsun a b) ;;
  w <- set_flag Illumination w (g_min Illumination a b) ;;
  w <- set_flag Slope w (g_or Slope a b) ;;
  set_flag Vaporfill w (g_or Vaporfill a b).

(** par_qai_t: param-hl.h (the screening switches). *)
Record qai_rule := mkRule {
  r_off : bool; r_cld_opq : bool; r_cld_unc : bool; r_cld_cir : bool; r_shd : bool;
  r_snw : bool; r_wtr : bool; r_aod_fill : bool; r_aod_high : bool; r_aod_int : bool;
  r_sub : bool; r_sat : bool; r_sun : bool; r_ill_low : bool; r_ill_poor : bool;
  r_ill_shd : bool; r_slp : bool; r_wvp : bool }.

(** use_this_pixel: quality-hl.c:42-66. *)
Definition use_this_pixel (w : Z) (r : qai_rule) (is_ard : bool) : bool :=
  if negb is_ard && on (get_flag Off w) then false
  else if r_off r && on (get_flag Off w) then false
  else if r_cld_unc r && (get_flag Cloud w =? 1) then false
  else if r_cld_opq r && (get_flag Cloud w =? 2) then false
  else if r_cld_cir r && (get_flag Cloud w =? 3) then false
  else if r_shd r && on (get_flag Shadow w) then false
  else if r_snw r && on (get_flag Snow w) then false
  else if r_wtr r && on (get_flag Water w) then false
  else if r_aod_int r && (get_flag Aerosol w =? 1) then false
  else if r_aod_high r && (get_flag Aerosol w =? 2) then false
  else if r_aod_fill r && (get_flag Aerosol w =? 3) then false
  else if r_sub r && on (get_flag Subzero w) then false
  else if r_sat r && on (get_flag Saturation w) then false
  else if r_sun r && on (get_flag Lowsun w) then false
  else if r_ill_low r && (get_flag Illumination w =? 1) then false
  else if r_ill_poor r && (get_flag Illumination w =? 2) then false
  else if r_ill_shd r && (get_flag Illumination w =? 3) then false
  else if r_slp r && on (get_flag Slope w) then false
  else if r_wvp r && on (get_flag Vaporfill w) then false
  else true.

(** Enumeration codes _QAI_OFF_ ... _QAI_WVP_: enum-cl.h:112-117. *)
Definition QAI_OFF := 0.       Definition QAI_CLD_OPQ := 1.   Definition QAI_CLD_UNC := 2.
Definition QAI_CLD_CIR := 3.   Definition QAI_SHD := 4.       Definition QAI_SNW := 5.
Definition QAI_WTR := 6.       Definition QAI_AOD_FILL := 7.  Definition QAI_AOD_HIGH := 8.
Definition QAI_AOD_INT := 9.   Definition QAI_SUB := 10.      Definition QAI_SAT := 11.
Definition QAI_SUN := 12.      Definition QAI_ILL_SHD := 13.  Definition QAI_ILL_POOR := 14.
Definition QAI_ILL_LOW := 15.  Definition QAI_SLP := 16.      Definition QAI_WVP := 17.

(** parse_quality: param-hl.c:730-753; the rule struct is zero-initialised by
    allocate_param_higher. [if (flags[i] == X) field = true] is written as a
    disjunction. *)
Definition no_rule : qai_rule :=
  mkRule false false false false false false false false false false false false false
         false false false false false.
Definition parse_flag (r : qai_rule) (f : Z) : qai_rule :=
  mkRule (r_off r || (f =? QAI_OFF)) (r_cld_opq r || (f =? QAI_CLD_OPQ))
         (r_cld_unc r || (f =? QAI_CLD_UNC)) (r_cld_cir r || (f =? QAI_CLD_CIR))
         (r_shd r || (f =? QAI_SHD)) (r_snw r || (f =? QAI_SNW)) (r_wtr r || (f =? QAI_WTR))
         (r_aod_fill r || (f =? QAI_AOD_FILL)) (r_aod_high r || (f =? QAI_AOD_HIGH))
         (r_aod_int r || (f =? QAI_AOD_INT)) (r_sub r || (f =? QAI_SUB))
         (r_sat r || (f =? QAI_SAT)) (r_sun r || (f =? QAI_SUN))
         (r_ill_low r || (f =? QAI_ILL_LOW)) (r_ill_poor r || (f =? QAI_ILL_POOR))
         (r_ill_shd r || (f =? QAI_ILL_SHD)) (r_slp r || (f =? QAI_SLP))
         (r_wvp r || (f =? QAI_WVP)).
Definition parse_quality (flags : list Z) : qai_rule := fold_left parse_flag flags no_rule.

(** Input levels that carry FORCE quality words: param-hl / enum-cl.h. *)
Inductive input_level := INP_QAI | INP_ARD | INP_OTHER.

(** screen_qai: quality-hl.c:81-145.  [qai] is one list of words per
    acquisition, [mask] the processing mask (None = no mask, 0 = outside).
    Failing allocations and the OpenMP schedule are not modelled: iterations of
    the parallel loop write disjoint pixels.  Reading the mask outside its
    extent is UB. *)
Fixpoint screen_pixels (words : list Z) (mask : option (list Z)) (p : Z) (r : qai_rule)
         (is_ard : bool) : outcome (list bool) :=
  match words with
  | [] => Ret []
  | w :: ws =>
    inside <- match mask with
              | None => Ret true
              | Some m => v <- of_option (get_at m p) ;; Ret (on v)
              end ;;
    rest <- screen_pixels ws mask (p + 1) r is_ard ;;
    Ret ((if inside then use_this_pixel w r is_ard else false) :: rest)
  end.
Definition is_ard_level (l : input_level) : bool :=
  match l with INP_QAI | INP_ARD => true | INP_OTHER => false end.
Fixpoint screen_qai (qai : list (list Z)) (mask : option (list Z)) (r : qai_rule)
         (l : input_level) : outcome (list (list bool)) :=
  match qai with
  | [] => Ret []
  | img :: rest =>
    m <- screen_pixels img mask 0 r (is_ard_level l) ;;
    ms <- screen_qai rest mask r l ;;
    Ret (m :: ms)
  end.
