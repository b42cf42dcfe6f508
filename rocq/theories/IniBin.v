(** * IniBin: binary input and output and the GMP constructors on memory whose contents may be indeterminate.

    As [BinModel.v], on the cells of [IniModel.v].  Line numbers: Aeu.h unless Aesi.h is named. *)
From Verif Require Export IniSigned BinModel.
Open Scope Z_scope.

(** One [is.read(reinterpret_cast<char* >(&blocks[j]), sizeof(block))] of l.1441 / 1444: the bytes delivered overwrite
    the first bytes of the block; what the block held before matters only if fewer than four arrive. *)
Definition c_read_block (le : bool) (blocks : cells) (is : istream) (j : Z) : outcome (cells * istream) :=
  let '(got, is') := is_read is 4 in
  old <- (if len got =? 4 then Ok 0 else cget blocks j) ;;
  blocks' <- cset blocks j (bytes_block le (got ++ skipn (length got) (block_bytes le old))) ;;
  Ok (blocks', is').

(** l.1437-1446; l.1438 [blocks = {}] overwrites whatever the object held *)
Definition c_readBinary (le : bool) (n : Z) (blocks : cells) (is : istream) (bigEndian : bool) : outcome (cells * istream) :=
  let blocks := czeros n in
  let body := fun i '(blocks, is) =>
    '(blocks, is') <- c_read_block le blocks is i ;;
    if igood is' then Ok (Next (blocks, is')) else Ok (Exit (blocks, is')) in
  x <- (if bigEndian then forDx n 0 body (blocks, is) else forUx 0 n body (blocks, is)) ;;
  match x with Next r => Ok r | Exit r => Ok r end.

(** l.1456-1464.  [os.write] looks at the block only if the stream is good; then (simplified) at all four bytes. *)
Definition c_writeBinary (le : bool) (n : Z) (a : cells) (os : bostream) (bigEndian : bool) : outcome bostream :=
  let body := fun i os =>
    os' <- (if ogood os then b <- cget a i ;; Ok (os_write os (block_bytes le b)) else Ok os) ;;
    if ogood os' then Ok (Next os') else Ok (Exit os') in
  x <- (if bigEndian then forDx n 0 body os else forUx 0 n body os) ;;
  match x with Next r => Ok r | Exit r => Ok r end.

(** called at l.262: writes its words into the vector, see [mpz_export] *)
Definition c_mpz_export (le : bool) (buffer : cells) (z : Z) : outcome (cells * Z) :=
  buffer <- forU 0 (word_count z) (fun i buffer =>
    cset buffer i (bytes_block le (le_bytes (Z.abs z / 2 ^ (32 * i) mod 2 ^ 32)))) buffer ;;
  Ok (buffer, word_count z).

(** l.257-267: the object starts as [Aeu {}], the vector with zeros *)
Definition c_from_mpz (cfg : config) (le : bool) (n : Z) (z : Z) : outcome cells :=
  let bitLength := mpz_sizeinbase2 z in
  let tBlocksNumber := 1 + (bitLength - 1) / 4 * 8 in
  '(buffer, count) <- c_mpz_export le (czeros tBlocksNumber) z ;;
  forU 0 count (fun i blocks => b <- cget buffer i ;; c_setBlock cfg n blocks i b) (czeros n).

(** Aesi.h l.158-169 *)
Definition cs_from_mpz (cfg : config) (le : bool) (n : Z) (z : Z) : outcome caesi :=
  if z =? 0 then Ok (cs_default n)
  else base <- c_from_mpz cfg le n z ;; Ok (mk_caesi (Some (if z <? 0 then SNeg else SPos)) base).
