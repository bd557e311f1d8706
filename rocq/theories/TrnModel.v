(** Training of models: split of the samples, src/main/aux-level/force-train.cpp:188-189, 205-238, 251, and class weights, src/modules/aux-level/train-aux.cpp:232-279
    with the check of FEATURE_WEIGHTS, src/modules/aux-level/param-train-aux.c:160-173.
    A sample is one value (its features and its response are copied together).  The percentage is a binary32 number, as read; weights are exact reals.
    rand() is any list of numbers that are not negative.  calloc(0) returns an array without elements. *)
From Coq Require Import Reals.
From Verif Require Import Base Float ModeModel.

(** ** Split *)
(** 188: t_response.nrow * train->per_train / 100. *)
Definition n_train (nrow : Z) (per : f32) : outcome Z := int_of (f32_div (f32_mul (f32_of_Z nrow) per) (f32_of_Z 100)).
(** 218-220; [None]: the numbers have come to an end while the loop goes on. *)
Fixpoint draw (nrow : Z) (marks : list bool) (rs : list Z) : outcome (option (Z * list Z)) :=
  match rs with
  | [] => Ret None
  | r :: t => b <- of_option (get_at marks (Z.rem r nrow)) ;; if (b : bool) then draw nrow marks t else Ret (Some (Z.rem r nrow, t))
  end.
(** 216-223, for k, ..., k + n - 1. *)
Fixpoint mark (random : bool) (nrow : Z) (n : nat) (k : Z) (marks : list bool) (rs : list Z) : outcome (option (list bool)) :=
  match n with
  | O => Ret (Some marks)
  | S n' =>
    if random then
      d <- draw nrow marks rs ;;
      match d with
      | None => Ret None
      | Some (s, t) => m <- of_option (set_at marks s true) ;; mark random nrow n' (k + 1) m t
      end
    else m <- of_option (set_at marks k true) ;; mark random nrow n' (k + 1) m rs
  end.
(** 225-238; [None]: an element as it was allocated. *)
Fixpoint fill {A} (samples : list A) (marks : list bool) (k j : Z) (train val : list (option A)) : outcome (list (option A) * list (option A)) :=
  match samples, marks with
  | [], _ => Ret (train, val)
  | x :: s, b :: m =>
    if b then t <- of_option (set_at train k (Some x)) ;; fill s m (k + 1) j t val
    else v <- of_option (set_at val j (Some x)) ;; fill s m k (j + 1) train v
  | _ :: _, [] => UB
  end.
(** 188-251.  A negative number of elements cannot be allocated: [Exit].  251 reads the first row of the training samples. *)
Definition split {A} (random : bool) (per : f32) (samples : list A) (rs : list Z) : outcome (option (list (option A) * list (option A))) :=
  let nrow := zlen samples in
  n <- n_train nrow per ;;
  if (n <? 0) || (nrow - n <? 0) then Exit
  else
    m <- mark random nrow (Z.to_nat n) 0 (repeat false (length samples)) rs ;;
    match m with
    | None => Ret None
    | Some marks =>
      r <- fill samples marks 0 0 (repeat None (Z.to_nat n)) (repeat None (Z.to_nat (nrow - n))) ;;
      _ <- of_option (get_at (fst r) 0) ;;
      Ret (Some r)
    end.

(** ** Class weights *)
Inductive weights := Equalized | Proportional | Antiproportional | Custom (ws : list R).
Definition rsum (l : list R) : R := fold_left Rplus l 0%R.
(** train-aux.cpp:232-279; [None]: priors is NULL.  A list has at least two weights (param-train-aux.c:160-168). *)
Definition class_priors (regression : bool) (w : weights) (response : list Z) : outcome (option (list R)) :=
  if regression then Ret None
  else match w with
       | Equalized => Ret None
       | Proportional =>
         h <- histogram response ;;
         Ret (Some (map (fun c => (IZR c / IZR (zlen response))%R) (snd (fst h))))
       | Antiproportional =>
         h <- histogram response ;;
         let p := map (fun c => (IZR (zlen response) / IZR c)%R) (snd (fst h)) in
         Ret (Some (map (fun x => (x / rsum p)%R) p))
       | Custom ws =>
         k <- n_uniq response ;;
         if k =? zlen ws then Ret (Some ws) else Exit
       end.
