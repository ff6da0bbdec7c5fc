(** Chunks of a file in the browser cache: ranges and names.
    Models browser/src/lib.rs:46-76 and browser/src/web_cache_fs.rs:593-663. *)
From Coq Require Import ZArith.
From Verif Require Import Base BaseLemmas U64.
Local Open Scope N_scope.

(** [Range<u64>]. *)
Definition range : Type := (N * N)%type.

(** [i64::try_from(u64)] fails from [2^63] on; [usize::try_from(i64)] fails for
    negative numbers and, on wasm32, from [2^32] on; [i32::try_from(usize)] fails
    from [2^31] on. *)
Definition i64_lim : N := 9223372036854775808.
Definition usize_lim : N := 4294967296.
Definition i32_lim : N := 2147483648.
Definition to_i64 (n : N) : res Z := if n <? i64_lim then Ok (Z.of_N n) else Err.
Definition z_to_usize (z : Z) : res N :=
  if (z <? 0)%Z then Err else if Z.to_N z <? usize_lim then Ok (Z.to_N z) else Err.
Definition to_usize (n : N) : res N := if n <? usize_lim then Ok n else Err.
Definition to_i32 (n : N) : res N := if n <? i32_lim then Ok n else Err.

(** [ranges], browser/src/lib.rs:53-65.  [saturating_sub] is subtraction of [N].
    The [i64] sums cannot overflow: both terms of [t] lie in [0, 2^63), and
    [sr + t] is at most [2^63 - 1], see [ranges_no_overflow]. *)
Definition ranges (src tgt : range) : res (range * range) :=
  let src_len := snd src - fst src in
  a <- to_i64 (N.min (fst tgt - fst src) src_len) ;;
  b <- to_i64 (N.min (snd tgt - fst src) src_len) ;;
  s <- to_i64 (fst src) ;;
  g <- to_i64 (fst tgt) ;;
  let t := (s - g)%Z in
  ua <- z_to_usize a ;;
  ub <- z_to_usize b ;;
  va <- z_to_usize (Z.max (a + t) 0) ;;
  vb <- z_to_usize (Z.max (b + t) 0) ;;
  Ok ((ua, ub), (va, vb)).

(** [overlap], browser/src/lib.rs:68-70. *)
Definition overlap (a b : range) : bool :=
  negb ((snd a <=? fst b) || (snd b <=? fst a)).
(** [contains], browser/src/lib.rs:73-75. *)
Definition contains (a b : range) : bool :=
  (fst a <=? fst b) && (snd b <=? snd a).

(** [ChunkMeta], web_cache_fs.rs:593-604. *)
Record chunk : Type := Chunk { level : N; offset : N; len : N }.
(** The derived [Default], web_cache_fs.rs:593. *)
Definition default_chunk : chunk := Chunk 0 0 0.
(** [ChunkMeta::new], web_cache_fs.rs:607-613.  An empty or inverted range is not
    passed to it. *)
Definition chunk_new (r : range) (l : N) : chunk := Chunk l (fst r) (snd r - fst r).
(** [ChunkMeta::range], web_cache_fs.rs:615-617.  The sum does not overflow for
    chunks that were written, see [sum_ok]. *)
Definition crange (c : chunk) : range := (offset c, offset c + len c).
(** The derived [Ord], web_cache_fs.rs:593: lexicographic. *)
Definition chunk_ltb (a b : chunk) : bool :=
  (level a <? level b) || (level a =? level b) &&
  ((offset a <? offset b) || (offset a =? offset b) && (len a <? len b)).
(** The derived [Eq], web_cache_fs.rs:593. *)
Definition chunk_eqb (a b : chunk) : bool :=
  (level a =? level b) && (offset a =? offset b) && (len a =? len b).

(** ** Names *)

(** A lower case hexadecimal digit (Rust's [{:x}]). *)
Definition hex_digit (n : N) : byte := byte_of (if n <? 10 then 48 + n else 87 + n).
(** The [k] low hexadecimal digits of [x], most significant first. *)
Fixpoint hex_digits (k : nat) (x : N) : bytes :=
  match k with
  | O => []
  | S k => hex_digits k (x / 16) ++ [hex_digit (x mod 16)]
  end.
(** [{:0wx}]: as many digits as needed and at least [w] (standard library). *)
Definition hex (w : nat) (x : N) : bytes :=
  hex_digits (Nat.max w (N.to_nat (N.log2 x / 4 + 1))) x.

(** The separators in the names of chunks and requests, web_cache_fs.rs:638-650. *)
Definition dash : byte := x2d.
Definition plus : byte := x2b.
Definition slash : byte := x2f.
Definition quest : byte := x3f.

(** [ToString for ChunkMeta], web_cache_fs.rs:646-650. *)
Definition chunk_name (c : chunk) : bytes :=
  hex 4 (level c) ++ dash :: hex 8 (offset c) ++ dash :: hex 4 (len c).
(** [ChunkMeta::to_request_str], web_cache_fs.rs:638-643. *)
Definition request_str (file : bytes) (c : chunk) : bytes :=
  slash :: file ++ quest :: chunk_name c.

(** The value of a digit, upper or lower case ([char::to_digit(16)]). *)
Definition digit_val (b : byte) : option N :=
  let n := bnum b in
  if (48 <=? n) && (n <? 58) then Some (n - 48)
  else if (97 <=? n) && (n <? 103) then Some (n - 87)
  else if (65 <=? n) && (n <? 71) then Some (n - 55)
  else None.
(** The loop of [u64::from_str_radix(_, 16)] (standard library): fails at other
    characters and on overflow. *)
Fixpoint parse_digits (acc : N) (s : bytes) : res N :=
  match s with
  | [] => Ok acc
  | b :: s => match digit_val b with
              | None => Err
              | Some d => if acc * 16 + d <? u64_max then parse_digits (acc * 16 + d) s else Err
              end
  end.
(** [u64::from_str_radix(_, 16)] (standard library): a leading [+] is accepted; the
    empty string and a lone sign are not. *)
Definition parse_hex (s : bytes) : res N :=
  match s with
  | [] => Err
  | b :: r => if Byte.eqb b plus then (match r with [] => Err | _ => parse_digits 0 r end)
              else parse_digits 0 s
  end.
(** [str::split('-')] (standard library). *)
Fixpoint split_at (sep : byte) (s : bytes) : list bytes :=
  match s with
  | [] => [[]]
  | b :: s => if Byte.eqb b sep then [] :: split_at sep s
              else match split_at sep s with
                   | [] => [[b]]
                   | p :: ps => (b :: p) :: ps
                   end
  end.
(** [FromStr for ChunkMeta], web_cache_fs.rs:652-663. *)
Definition parse_chunk (s : bytes) : res chunk :=
  match split_at dash s with
  | [a; b; c] => l <- parse_hex a ;; o <- parse_hex b ;; n <- parse_hex c ;; Ok (Chunk l o n)
  | _ => Err
  end.

(** The part before and after the first [?]. *)
Fixpoint cut_query (s : bytes) : bytes * option bytes :=
  match s with
  | [] => ([], None)
  | b :: r => if Byte.eqb b quest then ([], Some r)
              else let (p, q) := cut_query r in (b :: p, q)
  end.
Fixpoint bytes_eqb (a b : bytes) : bool :=
  match a, b with
  | [], [] => true
  | x :: a, y :: b => Byte.eqb x y && bytes_eqb a b
  | _, _ => false
  end.
(** [ChunkMeta::parse_and_filter], web_cache_fs.rs:619-636.  Simplified: the URL of
    a request is its path and query as passed to the cache; the escaping that the
    browser and [Url::parse] apply to unusual characters of file names is not
    modelled. *)
Definition parse_and_filter (req file : bytes) : res (option chunk) :=
  match cut_query req with
  | (path, Some q) =>
      match path with
      | b :: name => if Byte.eqb b slash
                     then if bytes_eqb name file then c <- parse_chunk q ;; Ok (Some c) else Ok None
                     else Panic
      | [] => Panic
      end
  | (_, None) => Ok None
  end.
