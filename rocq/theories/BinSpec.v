(** * BinSpec: byte streams and the meaning of the binary format.  Refers to no function of the model. *)
From Verif Require Export Spec.
Open Scope Z_scope.

(** An input stream of bytes: what is left to read, and whether the stream is still good. *)
Record istream := mk_is { ibytes : list Z; igood : bool }.
(** An output stream of bytes: what has been written, how many more bytes the sink accepts ([None]: no limit),
    and whether the stream is still good. *)
Record bostream := mk_bos { obytes : list Z; oroom : option Z; ogood : bool }.

Definition is_byte (b : Z) : Prop := 0 <= b < 256.

(** [place le be n k]: which byte of the N-bit value (0 = least significant) is the [k]-th byte of the file, when
    the host is little-endian ([le]) and the caller asked for the most significant block first ([be]). *)
Definition place (le be : bool) (n k : Z) : Z :=
  4 * (if be then n - 1 - k / 4 else k / 4) + (if le then k mod 4 else 3 - k mod 4).

(** The [i]-th byte of an integer. *)
Definition byte_at (v i : Z) : Z := (v / 256 ^ i) mod 256.
