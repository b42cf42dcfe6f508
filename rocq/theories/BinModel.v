(** * BinModel: binary input and output, Aeu.h l.1427-1466, and the GMP constructors.

    [le]: the host stores the least significant byte of a 32-bit block first. *)
From Verif Require Export BinSpec AeuModel AesiModel.
Open Scope Z_scope.

(** The bytes of a block object in memory order, and back ([reinterpret_cast<char*>(&block)], l.1441, 1444, 1459, 1462). *)
Definition le_bytes (x : Z) : list Z := [x mod 256; x / 256 mod 256; x / 65536 mod 256; x / 16777216 mod 256].
(** Aeu.h l.1441, 1444 *)
Definition le_block (l : list Z) : Z := znth l 0 + 256 * znth l 1 + 65536 * znth l 2 + 16777216 * znth l 3.
(** Aeu.h l.1459, 1462 *)
Definition block_bytes (le : bool) (x : Z) : list Z := if le then le_bytes x else rev (le_bytes x).
(** Aeu.h l.1441, 1444 *)
Definition bytes_block (le : bool) (l : list Z) : Z := le_block (if le then l else rev l).

(** std::basic_istream::read (standard library contract): on a good stream extracts up to [k] bytes; if fewer are
    left, all of them, and the stream is no longer good; a stream that is not good delivers nothing. *)
(** called at Aeu.h l.1441, 1444 *)
Definition is_read (is : istream) (k : Z) : list Z * istream :=
  if igood is then (firstn (Z.to_nat k) (ibytes is), mk_is (skipn (Z.to_nat k) (ibytes is)) (k <=? len (ibytes is)))
  else ([], is).

(** std::basic_ostream::write (standard library contract): a good stream passes the bytes on until the sink refuses;
    then the stream is no longer good. *)
(** called at Aeu.h l.1459, 1462 *)
Definition os_write (os : bostream) (l : list Z) : bostream :=
  if ogood os then
    match oroom os with
    | None => mk_bos (obytes os ++ l) None true
    | Some r => mk_bos (obytes os ++ firstn (Z.to_nat r) l) (Some (Z.max 0 (r - len l))) (len l <=? r)
    end
  else os.

(** One [is.read(reinterpret_cast<char* >(&blocks[j]), sizeof(block))] of l.1441 / 1444: the bytes delivered overwrite
    the first bytes of the block object. *)
Definition read_block (le : bool) (blocks : list Z) (is : istream) (j : Z) : outcome (list Z * istream) :=
  old <- aget blocks j ;;
  let '(got, is') := is_read is 4 in
  blocks' <- aset blocks j (bytes_block le (got ++ skipn (length got) (block_bytes le old))) ;;
  Ok (blocks', is').

(** l.1437-1446; only the char instantiation compiles ([read] takes [Char*]). *)
Definition readBinary (le : bool) (n : Z) (is : istream) (bigEndian : bool) : outcome (list Z * istream) :=
  let body := fun i '(blocks, is) =>
    '(blocks, is') <- read_block le blocks is i ;;
    if igood is' then Ok (Next (blocks, is')) else Ok (Exit (blocks, is')) in
  x <- (if bigEndian then forDx n 0 body (zeros n, is) else forUx 0 n body (zeros n, is)) ;;
  match x with Next r => Ok r | Exit r => Ok r end.

(** l.1456-1464 *)
Definition writeBinary (le : bool) (n : Z) (a : list Z) (os : bostream) (bigEndian : bool) : outcome bostream :=
  let body := fun i os =>
    b <- aget a i ;;
    let os' := os_write os (block_bytes le b) in
    if ogood os' then Ok (Next os') else Ok (Exit os') in
  x <- (if bigEndian then forDx n 0 body os else forUx 0 n body os) ;;
  match x with Next r => Ok r | Exit r => Ok r end.

(** ** GMP *)

(** mpz_sizeinbase(z, 2) (GMP contract): the number of bits of |z|, and 1 for zero. *)
(** called at Aeu.h l.259 *)
Definition mpz_sizeinbase2 (z : Z) : Z := if z =? 0 then 1 else Z.log2 (Z.abs z) + 1.

(** mpz_export(buffer, &count, -1, sizeof(block), -1, 0, z) (GMP contract): writes the 32-bit words of |z|, least
    significant word first, each word as 4 bytes least significant first, no word for zero; returns the count.
    [le]: what a block holds after its bytes were written in that order on this host. *)
(** the count of Aeu.h l.262 *)
Definition word_count (z : Z) : Z := if z =? 0 then 0 else Z.log2 (Z.abs z) / 32 + 1.
(** called at Aeu.h l.262 *)
Definition mpz_export (le : bool) (buffer : list Z) (z : Z) : outcome (list Z * Z) :=
  buffer <- forU 0 (word_count z) (fun i buffer =>
    aset buffer i (bytes_block le (le_bytes (Z.abs z / 2 ^ (32 * i) mod 2 ^ 32)))) buffer ;;
  Ok (buffer, word_count z).

(** l.257-267: tBlocksNumber = 1 + (bitLength - 1) / sizeof(block) * 8 *)
Definition from_mpz (cfg : config) (le : bool) (n : Z) (z : Z) : outcome (list Z) :=
  let bitLength := mpz_sizeinbase2 z in
  let tBlocksNumber := 1 + (bitLength - 1) / 4 * 8 in
  '(buffer, count) <- mpz_export le (zeros tBlocksNumber) z ;;
  forU 0 count (fun i blocks => b <- aget buffer i ;; setBlock cfg n blocks i b) (zeros n).

(** Aesi.h l.158-169 *)
Definition s_from_mpz (cfg : config) (le : bool) (n : Z) (z : Z) : outcome aesi :=
  if z =? 0 then Ok (mk_aesi SZero (zeros n))
  else base <- from_mpz cfg le n z ;; Ok (mk_aesi (if z <? 0 then SNeg else SPos) base).

(** Aeu.h l.753-755 and Aesi.h l.635-637: [our == Aeu(mpz_class(other))] *)
Definition op_eq_mpz (cfg : config) (le : bool) (n : Z) (a : list Z) (z : Z) : outcome bool :=
  b <- from_mpz cfg le n z ;; op_eq cfg n n a b.
(** Aesi.h l.635-637 *)
Definition s_eq_mpz (cfg : config) (le : bool) (n : Z) (a : aesi) (z : Z) : outcome bool :=
  b <- s_from_mpz cfg le n z ;; s_eq cfg n n a b.
