(** Specification vocabulary for the byte-level ENVI properties C103 and C104: what a run of bytes
    means as a number, independently of the model's encoder and decoder. *)
From Verif Require Import M_Envi Spec_Envi M_EnviBytes.
From Flocq Require Import IEEE754.Binary IEEE754.Bits.
Open Scope Z_scope.
Open Scope list_scope.

(** n bytes of a file, from a position *)
Definition bytes_at (f : list ascii) (pos n : nat) : list ascii := firstn n (skipn pos f).

(** The unsigned number that bytes are in a byte order: byte k counts 256^k times in little endian
    order and 256^(n-1-k) times in big endian order *)
Definition weight (e : endian) (n k : nat) : Z :=
  match e with Little => 256 ^ Z.of_nat k | Big => 256 ^ Z.of_nat (n - 1 - k) end.
Definition unsigned (e : endian) (bs : list ascii) : Z :=
  fold_right Z.add 0
    (map (fun k => Z.of_nat (nat_of_ascii (nth k bs "000"%char)) * weight e (length bs) k)
         (seq 0 (length bs))).

(** How many bytes an element of the dtype takes *)
Definition size_of (d : np_dtype) : nat :=
  match d with
  | Bool_ | UInt8 | Int8 => 1
  | UInt16 | Int16 | Float16 => 2
  | UInt32 | Int32 | Float32 => 4
  | UInt64 | Int64 | Float64 | Complex64 => 8
  | Complex128 => 16
  | OtherDtype _ => 0
  end.
Definition half_range (d : np_dtype) : Z := 2 ^ (8 * Z.of_nat (size_of d) - 1).

(** The bytes bs, in byte order e, are the value v of dtype d *)
Definition is_value (e : endian) (d : np_dtype) (v : npval) (bs : list ascii) : Prop :=
  length bs = size_of d /\
  match d, v with
  | (UInt8 | UInt16 | UInt32 | UInt64), VInt z => z = unsigned e bs
  | (Int16 | Int32 | Int64), VInt z =>
      - half_range d <= z < half_range d /\
      (z = unsigned e bs \/ z = unsigned e bs - 2 * half_range d)
  | Float32, VF32 x => bits_of_b32 x = unsigned e bs
  | Float64, VF64 x => bits_of_b64 x = unsigned e bs
  | Complex64, VC64 re im =>
      bits_of_b32 re = unsigned e (firstn 4 bs) /\ bits_of_b32 im = unsigned e (skipn 4 bs)
  | _, _ => False
  end.

(** v is a value of dtype d (a dtype with an ENVI code) *)
Definition of_dtype (d : np_dtype) (v : npval) : Prop :=
  match d, v with
  | (UInt8 | UInt16 | UInt32 | UInt64), VInt z => 0 <= z < 2 * half_range d
  | (Int16 | Int32 | Int64), VInt z => - half_range d <= z < half_range d
  | Float32, VF32 _ => True
  | Float64, VF64 _ => True
  | Complex64, VC64 _ _ => True
  | _, _ => False
  end.
Definition cube_of (d : np_dtype) (c : cube npval) : Prop :=
  forall l x b v, cube_at c l x b = Some v -> of_dtype d v.

(** The dtype with which the data of a code are read (6, 7, 8, 10 and 11 are in the code's table
    without a dtype, and numpy then takes doubles) *)
Definition dtype_of_code (code : Z) : option np_dtype :=
  match code with
  | 1 => Some UInt8 | 2 => Some Int16 | 3 => Some Int32 | 4 => Some Float32 | 5 => Some Float64
  | 9 => Some Complex64 | 12 => Some UInt16 | 13 => Some UInt32 | 14 => Some Int64 | 15 => Some UInt64
  | 6 | 7 | 8 | 10 | 11 => Some Float64
  | _ => None
  end.
(** The code written for a dtype *)
Definition code_of_dtype (d : np_dtype) : option Z :=
  match d with
  | UInt8 => Some 1 | Int16 => Some 2 | Int32 => Some 3 | Float32 => Some 4 | Float64 => Some 5
  | Complex64 => Some 9 | UInt16 => Some 12 | UInt32 => Some 13 | Int64 => Some 14 | UInt64 => Some 15
  | _ => None
  end.

(** Where pixel x of line l and band b lies in a band-interleaved-by-line file *)
Definition bil_position (nx nb size l x b : nat) : nat := ((l * nb + b) * nx + x) * size.

(** The header file that is used: the one named, or else the image's name with .hdr appended, or
    else the image's name with its last four characters replaced *)
Definition header_used (w : bfs) (img : text) (hdr : option text) (h : text) : Prop :=
  hdr = Some h \/
  hdr = None /\ h = img ++ txt ".hdr" /\ w h <> None \/
  hdr = None /\ w (img ++ txt ".hdr") = None /\ h = py_slice img 0 (-4) ++ txt ".hdr" /\ w h <> None.
(** The header name the writer uses *)
Definition header_written (img : text) (hdr : option text) : text :=
  match hdr with Some h => h | None => img ++ txt ".hdr" end.

(** Only ASCII characters *)
Definition ascii_only (t : text) : Prop := forall c, In c t -> (nat_of_ascii c < 128)%nat.

(** Header entries that take one line *)
Definition one_line (e : entry) : Prop := match e with EInt _ _ | EText _ _ => True | _ => False end.
