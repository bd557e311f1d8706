(** What is asked of the products of the time series analysis. *)
From Verif Require Import Base Loops CStr DateModel SeasonModel SeasonSpec TsaModel.
From Coq Require Import Sorting.Sorted.

(** The output flags of the parameter file, by product. *)
Definition fold_requests (letter : list Z) (o : fold_out) : list (list Z * bool) :=
  [(` "FB" ++ letter, o_fb o); (` "TR" ++ letter, o_tr o); (` "CA" ++ letter, o_ca o)].
Definition pol_requests (suffix : list Z) (flag : bool) (use : list bool) : list (list Z * bool) :=
  map (fun tu => (fst tu ++ suffix, snd tu && flag)) (combine pol_tags use).
Definition requests (p : tpar) : list (list Z * bool) :=
  [(` "TSS", tp_tss p); (` "NRT", tp_nrt p); (` "RMS", tp_rms p); (` "TSI", tp_tsi p); (` "STM", tp_stm p)] ++
  fold_requests (` "Y") (tp_y p) ++ fold_requests (` "Q") (tp_q p) ++ fold_requests (` "M") (tp_m p) ++
  fold_requests (` "W") (tp_w p) ++ fold_requests (` "D") (tp_d p) ++
  [(` "PCX", tp_pct p); (` "PCY", tp_pct p)] ++
  pol_requests (` "-POL") (tp_pol p) (tp_use p) ++ pol_requests (` "-TRO") (tp_tro p) (tp_use p) ++ pol_requests (` "-CAO") (tp_cao p) (tp_use p) ++
  [(` "PYP", fst (tp_pyp p)); (` "RSP", fst (tp_rsp p))].
Definition asked (p : tpar) : list (list Z) := map fst (filter snd (requests p)).

(** A date as eight digits; the name of the file of a product. *)
Definition day_text (d : date) : list Z := print_0d 4 (year d) ++ print_0d 2 (month d) ++ print_0d 2 (day d).
Definition file_text (p : tpar) (index product : list Z) : list Z :=
  day_text (tp_lo p) ++ ` "-" ++ day_text (tp_hi p) ++ ` "_" ++ print_0d 3 (tp_doy_lo p) ++ ` "-" ++ print_0d 3 (tp_doy_hi p) ++
  ` "_HL_TSA_" ++ tp_target p ++ ` "_" ++ index ++ ` "_" ++ product.

(** The files written. *)
Definition bricks (l : list (option brick)) : list brick := flat_map (fun o => match o with Some b => [b] | None => [] end) l.
Definition written_files (l : list (option brick)) : list (list Z) := map b_file (filter b_written (bricks l)).

(** Trends and change points are computed from the folds and the polarmetrics. *)
Definition sources : list (list Z * list Z) :=
  flat_map (fun x => [(` "TR" ++ x, ` "FB" ++ x); (` "CA" ++ x, ` "FB" ++ x)]) [` "Y"; ` "Q"; ` "M"; ` "W"; ` "D"] ++
  flat_map (fun t => [(t ++ ` "-TRO", t ++ ` "-POL"); (t ++ ` "-CAO", t ++ ` "-POL")]) pol_tags.

(** Images in the order of their dates. *)
Definition chronological (imgs : list image) : Prop := StronglySorted (fun a b => ce (im_date a) <= ce (im_date b)) imgs.
(** The images after the end of the period of the fit. *)
Definition recent (p : tpar) (imgs : list image) : list image := filter (fun im => tp_fit_end p <? ce (im_date im)) imgs.

(** The product of an index in the result. *)
Definition is_product (p : tpar) (bs : list (option brick)) (index product : list Z) (b : brick) : Prop :=
  In (Some b) bs /\ b_product b = product /\ b_file b = file_text p index product.
