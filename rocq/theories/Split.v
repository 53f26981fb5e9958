(** Split.v - model of the split search of src/gbdt_algo/split_algo.{h,cc} (histograms, FindBestSplit).
    Definitions only.  Fused multiply-add is assumed not to be used: every operation rounds. *)
From Coq Require Import SpecFloat.
From Verif Require Import Base F32 Column DataStore Num Forest Config.

Section Split.
Context {N : Num}.
Local Open Scope num_scope.

(** kFloatTolerance (split_algo.cc:33): the double nearest to 1e-6 *)
Definition tolerance : N := nZ 1 / nZ 1000000.

(** Histogram (split_algo.h:38-64): histograms_ and non_zero_values_ *)
Record histogram := mkHist { h_data : list (grad N); h_values : list nat }.

(** w(index) * gradient_data_vec[index] *)
Definition row_grad (w : float_vector) (gd : list (grad N)) (row : nat) : res (grad N) :=
  let! wi := w row in let! d := vget gd row in Ret (gscale (nfloat wi) d).

(** One round of the loop (split_algo.cc:110-116); [code] is col[index]. *)
Definition hist_row (code : nat -> res Z) (w : float_vector) (gd : list (grad N)) (h : list (grad N)) (row : nat)
  : res (list (grad N)) :=
  let! k := code row in
  let! cell := vget h (Z.to_nat k) in
  let! d := row_grad w gd row in
  vset h (Z.to_nat k) (gadd cell d).

(** histograms_[i].g != 0 && histograms_[i].h != 0 (119) *)
Definition non_zero (h : list (grad N)) (i : nat) : bool :=
  match nth_error h i with Some d => negb (gg d =? n0) && negb (gh d =? n0) | None => false end.

(** ComputeHistograms (101-123) *)
Definition compute_histogram (code : nat -> res Z) (max_int : Z) (w : float_vector) (gd : list (grad N))
    (samples : list nat) : res histogram :=
  let! h := fold_res (hist_row code w gd) samples (repeat gzero (Z.to_nat max_int)) in
  Ret (mkHist h (filter (non_zero h) (seq 0 (Z.to_nat max_int)))).

(** HasMissingValue (125-128) *)
Definition has_missing (h : histogram) : res bool :=
  let! d := vget (h_data h) 0 in Ret (negb (gg d =? n0) || negb (gh d =? n0)).

(** SortOnNodeScore (135-143).  [srt less l] is std::sort; comparing NaN scores breaks its precondition (fewer than two
    values are not compared). *)
Definition node_score (lambda : N) (h : histogram) (v : nat) : N :=
  match nth_error (h_data h) v with Some d => gscore lambda d | None => n0 end.
Definition sort_on_node_score (srt : (nat -> nat -> bool) -> list nat -> list nat) (lambda : N) (h : histogram)
  : res histogram :=
  if (List.length (h_values h) <=? 1)%nat || forallb (fun v => node_score lambda h v =? node_score lambda h v) (h_values h)
  then Ret (mkHist (h_data h) (srt (fun a b => node_score lambda h a <? node_score lambda h b) (h_values h)))
  else Undef.

(** SplitPoint (146-150) *)
Record split_point := mkPoint { pt_left : Z; pt_missing_right : bool; pt_gain : N }.

(** The gain of dividing [total] into [left] and [right] (169-171, 178-183): [None] if a child is too light. *)
Definition cut_gain (c : config N) (total left right : grad N) : option N :=
  if cf_min_hessian c <? nmin (gh left) (gh right)
  then Some (energy (cf_l2_lambda c) left + energy (cf_l2_lambda c) right - energy (cf_l2_lambda c) total)
  else None.

(** The body of the loop for one cut (165-190): gain and missing_on_right *)
Definition best_here (c : config N) (h : histogram) (total left : grad N) (place_missing : bool) : res (N * bool) :=
  let right := gsub total left in
  let gain := match cut_gain c total left right with Some g => g | None => n0 end in
  if place_missing then
    let! m := has_missing h in
    if m then
      let! d := vget (h_data h) 0 in
      match cut_gain c total (gsub left d) (gadd right d) with
      | Some g => if gain <? g then Ret (g, true) else Ret (gain, false)
      | None => Ret (gain, false)
      end
    else Ret (gain, false)
  else Ret (gain, false).

(** The loop (163-198); [values] are the remaining non-zero values. *)
Fixpoint scan (c : config N) (h : histogram) (total : grad N) (place_missing : bool) (values : list nat) (i : Z)
    (left : grad N) (best : split_point) : res split_point :=
  match values with
  | [] => Ret best
  | v :: t =>
      let! best :=
        if (i =? 0)%Z then Ret best
        else
          let! (gain, missing_right) := best_here c h total left place_missing in
          if nmax (pt_gain best) (nmax (cf_min_gain c) tolerance) <? gain
          then Ret (mkPoint (i - 1) missing_right gain) else Ret best in
      let! d := vget (h_data h) v in
      scan c h total place_missing t (i + 1) (gadd left d) best
  end.

(** FindBestSplitPoint (154-201) *)
Definition find_best_split_point (c : config N) (h : histogram) (total : grad N) (place_missing : bool)
  : res (option split_point) :=
  let! p := scan c h total place_missing (h_values h) 0 gzero (mkPoint (-1) false n0) in
  Ret (if (0 <=? pt_left p)%Z then Some p else None).

(** The threshold (222-231): float addition, the rest in double, stored as float. *)
Definition d_two : spec_float := binary_normalize 53 1024 2 0 false.
Definition d_milli : spec_float := SFdiv 53 1024 (binary_normalize 53 1024 1 0 false) (binary_normalize 53 1024 1000 0 false).
Definition middle (left_limit right_limit : f32) : f32 :=
  to_f32 (SFdiv 53 1024 (to_f64 (SFadd 24 128 left_limit right_limit)) d_two).
Definition below (x : f32) : f32 := to_f32 (SFsub 53 1024 (to_f64 x) d_milli).

(** FindBestFloatSplit (207-233) *)
Definition find_best_float_split (b : bcol) (w : float_vector) (gd : list (grad N)) (samples : list nat)
    (c : config N) (total : grad N) : res (option (split N)) :=
  let! _ := icol_vec (b_ints b) in
  let! h := compute_histogram (b_bucket b) (b_max_int b) w gd samples in
  let! p := find_best_split_point c h total true in
  match p with
  | None => Ret None
  | Some p =>
      let! lv := vget (h_values h) (Z.to_nat (pt_left p)) in
      let! rv := vget (h_values h) (Z.to_nat (pt_left p + 1)) in
      let! left_limit := b_bucket_max b (Z.of_nat lv) in
      let! right_limit := b_bucket_min b (Z.of_nat rv) in
      let! threshold :=
        if is_nan left_limit then let! x := b_bucket_min b 1 in Ret (below x)
        else Ret (middle left_limit right_limit) in
      Ret (Some (mkSplit [] (Some (threshold, pt_missing_right p)) None (pt_gain p)))
  end.

(** Conversion of a uint to the int32 of the message *)
Definition s32 (z : Z) : Z := if (z <? 2147483648)%Z then z else (z - 4294967296)%Z.

(** FindBestStringSplit (235-266) *)
Definition find_best_string_split (srt : (nat -> nat -> bool) -> list nat -> list nat) (s : strcol)
    (w : float_vector) (gd : list (grad N)) (samples : list nat) (c : config N) (total : grad N)
  : res (option (split N)) :=
  let! _ := icol_vec (s_ints s) in
  let! h := compute_histogram (icol_get (s_ints s)) (str_max_int s) w gd samples in
  let! h := sort_on_node_score srt (cf_l2_lambda c) h in
  let! p := find_best_split_point c h total false in
  match p with
  | None => Ret None
  | Some p =>
      let size := Z.of_nat (List.length (h_values h)) in
      let k := Z.to_nat (pt_left p + 1) in
      let chosen := if (pt_left p + 1 <=? size - pt_left p - 1)%Z then firstn k (h_values h) else skipn k (h_values h) in
      Ret (Some (mkSplit [] None (Some ([], map (fun v => s32 (Z.of_nat v)) chosen)) (pt_gain p)))
  end.

(** FindBestSplit (268-285).  [None]: false, the Split is left alone. *)
Definition find_best_split (srt : (nat -> nat -> bool) -> list nat -> list nat) (col : column) (w : float_vector)
    (gd : list (grad N)) (samples : list nat) (c : config N) (total : grad N) : res (option (split N)) :=
  match c_body col with
  | BodyS s => find_best_string_split srt s w gd samples c total
  | BodyB b => find_best_float_split b w gd samples c total
  | BodyR _ => Ret None
  end.
End Split.
