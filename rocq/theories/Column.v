(** Column.v - model of src/data_store/column.{h,cc}.  Definitions only. *)
From Coq Require Import SpecFloat.
From Verif Require Import Base F32.
Local Open Scope Z_scope.

(** ** Integer storage (column.h:65-99, column.cc:53-133) *)

(** static_cast<uint8/uint16/uint32> *)
Definition u8 (z : Z) : Z := z mod 256.
Definition u16 (z : Z) : Z := z mod 65536.
Definition u32 (z : Z) : Z := z mod 4294967296.
Definition u64 (z : Z) : Z := z mod 18446744073709551616.
(** static_cast<int> *)
Definition int32 (z : Z) : Z := if u32 z <? 2147483648 then u32 z else u32 z - 4294967296.

(** kMaxUInt8, kMaxUInt16 (column.cc:32-33) *)
Definition kMaxUInt8 : Z := 256.
Definition kMaxUInt16 : Z := 65536.

(** Which of the three vectors [col_] points at. *)
Inductive width := W8 | W16 | W32.

(** Fields of IntegerizedColumn (column.h:91-98): [i_view] is col_ ([None]: null pointer). *)
Record icol := mkIcol {
  i_final : bool;
  i_view : option width;
  i8 : list Z;
  i16 : list Z;
  i32 : list Z
}.

Definition icol_init : icol := mkIcol false None [] [] [].

(** IntegerizedColumn::Finalize (column.cc:120-133) *)
Definition icol_finalize (c : icol) : icol :=
  mkIcol true
    (Some (if 0 <? zlen (i8 c) then W8 else if 0 <? zlen (i16 c) then W16 else W32))
    (i8 c) (i16 c) (i32 c).

(** col() (column.h:84-86): dereferences col_; undefined before Finalize. *)
Definition icol_vec (c : icol) : res (list Z) :=
  match i_view c with
  | None => Undef
  | Some W8 => Ret (i8 c)
  | Some W16 => Ret (i16 c)
  | Some W32 => Ret (i32 c)
  end.

(** IntegerizedColumn::size (column.cc:135-137) *)
Definition icol_size (c : icol) : res nat :=
  let! v := icol_vec c in Ret (List.length v).

(** col()[i] (column.cc:61-104) *)
Definition icol_get (c : icol) (i : nat) : res Z :=
  let! v := icol_vec c in vget v i.

(** col().missing(i) (column.h:71-73) *)
Definition icol_missing (c : icol) (i : nat) : res bool :=
  let! k := icol_get c i in Ret (k =? 0).

(** ** StringColumn (column.h:104-137, column.cc:139-182) *)

Definition missing_str : str := lit "__missing__".

(** [s_strings] = map_to_strings_, [s_index] = map_to_indices_ *)
Record strcol := mkStr {
  s_status : status;
  s_ints : icol;
  s_strings : list str;
  s_index : list (str * Z)
}.

(** Constructor and member initialisers (column.h:134-135, column.cc:139-141) *)
Definition str_init : strcol := mkStr SOk icol_init [missing_str] [(missing_str, 0)].

(** One iteration of the loop in StringColumn::Add (column.cc:152-163).
    uint values: the dictionary size is stored modulo 2^32. *)
Definition str_add1 (c : strcol) (s : str) : strcol :=
  let ic := s_ints c in
  match assoc s (s_index c) with
  | None =>
      let k := u32 (zlen (s_strings c)) in
      mkStr (s_status c)
        (mkIcol (i_final ic) (i_view ic) (i8 ic) (i16 ic) (i32 ic ++ [k]))
        (s_strings c ++ [s])
        ((s, k) :: s_index c)
  | Some k =>
      mkStr (s_status c)
        (mkIcol (i_final ic) (i_view ic) (i8 ic) (i16 ic) (i32 ic ++ [k]))
        (s_strings c) (s_index c)
  end.

(** StringColumn::Add (column.cc:150-164) *)
Definition str_add (raw : list str) (c : strcol) : strcol :=
  if is_ok (s_status c) then fold_left str_add1 raw c else c.

(** max_int (column.h:109-111) *)
Definition str_max_int (c : strcol) : Z := u32 (zlen (s_strings c)).

(** StringColumn::Finalize (column.cc:166-182) *)
Definition str_finalize (c : strcol) : strcol :=
  if is_ok (s_status c) then
    let ic := s_ints c in
    if i_final ic then
      mkStr (SErr FAILED_PRECONDITION) ic (s_strings c) (s_index c)
    else
      let ic' :=
        if str_max_int c <=? kMaxUInt8 then
          mkIcol (i_final ic) (i_view ic) (map u8 (i32 ic)) (i16 ic) []
        else if str_max_int c <=? kMaxUInt16 then
          mkIcol (i_final ic) (i_view ic) (i8 ic) (map u16 (i32 ic)) []
        else ic in
      mkStr (s_status c) (icol_finalize ic') (s_strings c) (s_index c)
  else c.

(** get_row_string (column.cc:146-148) *)
Definition str_row (c : strcol) (i : nat) : res str :=
  let! k := icol_get (s_ints c) i in vget (s_strings c) (Z.to_nat k).

(** get_cat_string (column.h:112-114) *)
Definition str_cat_string (c : strcol) (k : nat) : res str := vget (s_strings c) k.

(** get_cat_index (column.h:115-122) *)
Definition str_cat_index (c : strcol) (s : str) : option Z := assoc s (s_index c).

Definition str_size (c : strcol) : res nat := icol_size (s_ints c).
Definition str_missing (c : strcol) (i : nat) : res bool := icol_missing (s_ints c) i.

(** Column::CreateStringColumn (column.cc:307-313) *)
Definition create_string_column (raw : list str) : strcol :=
  str_finalize (str_add raw str_init).

(** ** BucketizedFloatColumn (column.h:139-180, column.cc:184-305) *)

(** [b_map] = bucket_map_ (std::map<float,uint>, kept sorted by key),
    [b_maxs], [b_mins] = bucket_maxs_, bucket_mins_; [b_nb] = num_buckets_ (int). *)
Record bcol := mkB {
  b_status : status;
  b_ints : icol;
  b_nb : Z;
  b_buffer : list f32;
  b_map : list (f32 * Z);
  b_maxs : list f32;
  b_mins : list f32
}.

(** Constructor (column.cc:184-186) *)
Definition b_init (nb : Z) : bcol := mkB SOk icol_init nb [] [] [] [].

(** ++histograms[v] on a std::map<float,uint> (column.cc:266-270).  Keys are identified when
    neither is less than the other, so -0.0 and +0.0 share the key that was inserted first.
    Simplification: counts do not wrap (fewer than 2^32 rows). *)
Fixpoint hist_add (v : f32) (h : list (f32 * Z)) : list (f32 * Z) :=
  match h with
  | [] => [(v, 1)]
  | (k, n) :: t =>
      if fltb v k then (v, 1) :: h
      else if fltb k v then (k, n) :: hist_add v t
      else (k, n + 1) :: t
  end.

Definition histogram (vs : list f32) : list (f32 * Z) :=
  fold_left (fun h v => if is_nan v then h else hist_add v h) vs [].

(** The while loop that moves frequent values into buckets of their own (column.cc:276-286):
    returns bucket_maxs_, left_over and the remaining histogram. *)
Fixpoint take_heavy (cap : Z) (h : list (f32 * Z)) (maxs : list f32) (left_over : Z)
  : list f32 * Z * list (f32 * Z) :=
  match h with
  | [] => (maxs, left_over, [])
  | (k, n) :: t =>
      if cap <=? n then take_heavy cap t (maxs ++ [k]) (left_over - n)
      else let '(m, lo, rest) := take_heavy cap t maxs left_over in (m, lo, (k, n) :: rest)
  end.

(** Loop of UniformBinning (column.cc:38-46) with the final push (48-50).
    [upper] is upper_limit. *)
Fixpoint uniform_binning (h : list (f32 * Z)) (cap : Z) (running : Z) (upper : f32)
         (buckets : list f32) : list f32 :=
  match h with
  | [] => if 0 <? running then buckets ++ [upper] else buckets
  | (k, n) :: t =>
      let running' := running + n in
      if cap <=? running' then uniform_binning t cap 0 k (buckets ++ [k])
      else uniform_binning t cap running' k buckets
  end.

(** std::sort with operator< on floats.  The sorted values are pairwise inequivalent, so every
    correct sort gives the result of insertion sort. *)
Fixpoint insert_f (v : f32) (l : list f32) : list f32 :=
  match l with
  | [] => [v]
  | x :: t => if fltb v x then v :: l else x :: insert_f v t
  end.
Definition sort_f (l : list f32) : list f32 := fold_right insert_f [] l.

(** bucket_map_[k] = i on a std::map<float,uint> *)
Fixpoint map_set (k : f32) (i : Z) (m : list (f32 * Z)) : list (f32 * Z) :=
  match m with
  | [] => [(k, i)]
  | (k', i') :: t =>
      if fltb k k' then (k, i) :: m
      else if fltb k' k then (k', i') :: map_set k i t
      else (k', i) :: t
  end.

(** for (i = 1; ...) bucket_map_[bucket_maxs_[i]] = i (column.cc:293-295); [i] is the index of the
    head of [maxs]. *)
Fixpoint build_map (maxs : list f32) (i : Z) (m : list (f32 * Z)) : list (f32 * Z) :=
  match maxs with
  | [] => m
  | k :: t => build_map t (i + 1) (map_set k i m)
  end.

(** bucket_map.lower_bound(v): first entry whose key is not less than v *)
Fixpoint lower_bound (v : f32) (m : list (f32 * Z)) : option Z :=
  match m with
  | [] => None
  | (k, i) :: t => if fltb k v then lower_bound v t else Some i
  end.

(** bucket_map.rbegin()->second; undefined on the empty map *)
Fixpoint last_id (m : list (f32 * Z)) : res Z :=
  match m with
  | [] => Undef
  | [(_, i)] => Ret i
  | _ :: t => last_id t
  end.

(** max_int (column.h:158-160) *)
Definition b_max_int (c : bcol) : Z := u32 (zlen (b_maxs c)).

(** Body of the loop in AddBucketizedVecHelper (column.cc:197-207).  [cast] is the conversion to
    the vector's element type. *)
Definition bucket_step (cast : Z -> Z) (m : list (f32 * Z)) (max_id : Z)
    (st : list Z * list f32) (v : f32) : res (list Z * list f32) :=
  let '(col, mins) := st in
  if is_nan v then Ret (col ++ [0], mins)
  else
    let id := match lower_bound v m with Some i => i | None => max_id end in
    let! old := vget mins (Z.to_nat id) in
    let! mins' := vset mins (Z.to_nat id) (fmin old v) in
    Ret (col ++ [cast id], mins').

(** AddBucketizedVecHelper (column.cc:191-209) *)
Definition add_helper (cast : Z -> Z) (raw : list f32) (m : list (f32 * Z))
    (col : list Z) (mins : list f32) : res (list Z * list f32) :=
  let! max_id := last_id m in
  fold_res (bucket_step cast m max_id) raw (col, mins).

(** AddBucketizedVec (column.cc:211-221) *)
Definition add_bucketized (raw : list f32) (c : bcol) : res bcol :=
  let ic := b_ints c in
  if b_max_int c <=? kMaxUInt8 then
    let! (col, mins) := add_helper u8 raw (b_map c) (i8 ic) (b_mins c) in
    Ret (mkB SOk (mkIcol (i_final ic) (i_view ic) col (i16 ic) (i32 ic))
             (b_nb c) (b_buffer c) (b_map c) (b_maxs c) mins)
  else if b_max_int c <=? kMaxUInt16 then
    let! (col, mins) := add_helper u16 raw (b_map c) (i16 ic) (b_mins c) in
    Ret (mkB SOk (mkIcol (i_final ic) (i_view ic) (i8 ic) col (i32 ic))
             (b_nb c) (b_buffer c) (b_map c) (b_maxs c) mins)
  else
    let! (col, mins) := add_helper u32 raw (b_map c) (i32 ic) (b_mins c) in
    Ret (mkB SOk (mkIcol (i_final ic) (i_view ic) (i8 ic) (i16 ic) col)
             (b_nb c) (b_buffer c) (b_map c) (b_maxs c) mins).

(** uint bucket_capacity = max(1ul, raw_floats.size() / num_buckets_) (column.cc:271) *)
Definition bucket_capacity (n nb : Z) : Z := u32 (Z.max 1 (n / u64 nb)).

(** The first half of BuildBuckets (column.cc:263-291): the sorted bucket_maxs_.
    left_over is an int, [num_buckets_ - bucket_maxs_.size()] is computed in unsigned 64 bit. *)
Definition bucket_limits (nb : Z) (raw : list f32) : res (list f32) :=
  let n := zlen raw in
  if u64 nb =? 0 then Undef
  else
    let cap := bucket_capacity n nb in
    let '(maxs, left_over, rest) := take_heavy cap (histogram raw) [fnan] n in
    let divisor := u64 (u64 nb - zlen maxs) in
    if divisor =? 0 then Undef
    else
      let lcap := u32 (Z.max 1 (u64 (int32 left_over) / divisor)) in
      let maxs' := uniform_binning rest lcap 0 fnan maxs in
      Ret (match maxs' with
           | [] => []
           | h :: t => h :: sort_f t
           end ++ [flt_max]).

(** BuildBuckets (column.cc:257-305).  [bucket_maxs_] and [bucket_map_] are empty at both call sites
    (235, 250); calling the public BuildBuckets directly a second time is not modelled. *)
Definition build_buckets (c : bcol) : res bcol :=
  if is_ok (b_status c) then
    if i_final (b_ints c) then
      Ret (mkB (SErr FAILED_PRECONDITION) (b_ints c) (b_nb c) (b_buffer c) (b_map c)
               (b_maxs c) (b_mins c))
    else
      let! maxs := bucket_limits (b_nb c) (b_buffer c) in
      let m := build_map (tl maxs) 1 (b_map c) in
      let c1 := mkB (b_status c) (b_ints c) (b_nb c) (b_buffer c) m maxs maxs in
      let! c2 := add_bucketized (b_buffer c) c1 in
      Ret (mkB (b_status c2) (b_ints c2) (b_nb c2) [] (b_map c2) (b_maxs c2) (b_mins c2))
  else Ret c.

(** BucketizedFloatColumn::Add (column.cc:223-241).  100 * num_buckets_ is an int product: signed
    overflow is undefined; the comparison converts it to unsigned 64 bit. *)
Definition b_add (raw : list f32) (c : bcol) : res bcol :=
  if is_ok (b_status c) then
    if i_final (b_ints c) then
      Ret (mkB (SErr FAILED_PRECONDITION) (b_ints c) (b_nb c) (b_buffer c) (b_map c)
               (b_maxs c) (b_mins c))
    else if zlen (b_maxs c) =? 0 then
      let buf := b_buffer c ++ raw in
      let c1 := mkB (b_status c) (b_ints c) (b_nb c) buf (b_map c) (b_maxs c) (b_mins c) in
      let limit := 100 * b_nb c in
      if (limit <? -2147483648) || (2147483647 <? limit) then Undef
      else if u64 limit <? zlen buf then build_buckets c1 else Ret c1
    else add_bucketized raw c
  else Ret c.

(** BucketizedFloatColumn::Finalize (column.cc:243-255) *)
Definition b_finalize (c : bcol) : res bcol :=
  if is_ok (b_status c) then
    if i_final (b_ints c) then
      Ret (mkB (SErr FAILED_PRECONDITION) (b_ints c) (b_nb c) (b_buffer c) (b_map c)
               (b_maxs c) (b_mins c))
    else
      let! c1 := (if zlen (b_maxs c) =? 0 then build_buckets c else Ret c) in
      if is_ok (b_status c1) then
        Ret (mkB (b_status c1) (icol_finalize (b_ints c1)) (b_nb c1) (b_buffer c1) []
                 (b_maxs c1) (b_mins c1))
      else Ret c1
  else Ret c.

(** Accessors (column.h:144-155) *)
Definition b_bucket_max (c : bcol) (k : Z) : res f32 := vget (b_maxs c) (Z.to_nat k).
Definition b_bucket_min (c : bcol) (k : Z) : res f32 := vget (b_mins c) (Z.to_nat k).
Definition b_bucket (c : bcol) (i : nat) : res Z := icol_get (b_ints c) i.
Definition b_row_max (c : bcol) (i : nat) : res f32 :=
  let! k := b_bucket c i in b_bucket_max c k.
Definition b_row_min (c : bcol) (i : nat) : res f32 :=
  let! k := b_bucket c i in b_bucket_min c k.
Definition b_size (c : bcol) : res nat := icol_size (b_ints c).
Definition b_missing (c : bcol) (i : nat) : res bool := icol_missing (b_ints c) i.

(** Adding a sequence of blocks, then Finalize. *)
Definition b_load (nb : Z) (blocks : list (list f32)) : res bcol :=
  let! c := fold_res (fun c raw => b_add raw c) blocks (b_init nb) in b_finalize c.

(** Column::CreateBucketizedFloatColumn (column.cc:315-321), default num_buckets 30000
    (column.h:44-46). *)
Definition create_bucketized (nb : Z) (raw : list f32) : res bcol :=
  let! c := b_add raw (b_init nb) in b_finalize c.
Definition default_buckets : Z := 30000.

(** ** RawFloatColumn (column.h:182-198, column.cc:332-348) *)

Record rcol := mkR { r_status : status; r_floats : list f32 }.
Definition r_init : rcol := mkR SOk [].
(** RawFloatColumn::Add (column.cc:335-339) *)
Definition r_add (raw : list f32) (c : rcol) : rcol :=
  if is_ok (r_status c) then mkR (r_status c) (r_floats c ++ raw) else c.
(** RawFloatColumn::Finalize (column.cc:341-344) *)
Definition r_finalize (c : rcol) : rcol := c.
Definition r_size (c : rcol) : nat := List.length (r_floats c).
(** operator[] (column.h:185-187) *)
Definition r_get (c : rcol) (i : nat) : res f32 := vget (r_floats c) i.
(** Column::CreateRawFloatColumn (column.cc:323-330) *)
Definition create_raw (raw : list f32) : rcol := r_finalize (r_add raw r_init).
