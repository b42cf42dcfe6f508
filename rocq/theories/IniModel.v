(** * IniModel: the unsigned class on memory whose contents may be indeterminate.

    AeuModel.v gives every object definite blocks.  In the source an object declared without an initialiser
    (Aeu.h l.142: the defaulted constructor, member [blocks] l.103 has no initialiser) has indeterminate blocks,
    and the code itself declares such objects (l.167, 521, 544, 567, 1128, 1163, 1257).  Here an object is a list
    of [cells]: [None] is a block nobody has written yet.  Reading such a block - also by copying the object - is
    the fault [Indeterminate] (undefined behaviour; in a constant expression the program is ill-formed).

    All line numbers refer to /repo/include/AesiMultiprecision/Aeu.h.  The definitions follow those of AeuModel.v
    line by line, on cells, with the uninitialised objects and the copies of the source written out.
    Simplifications: a copy ([Aeu t = x;], [x = y;]) reads the blocks of its source all at once and faults if any
    of them is indeterminate; returning a local object is not a copy (it is elided or the object has been
    checked to be determinate by the theorems). *)
From Verif Require Export AeuModel.
Open Scope Z_scope.

(** The memory of an object: l.103 [blockLine blocks]. *)
Definition cells := list (option Z).

(** The memory of an object declared without an initialiser: l.142 with default-initialisation, [Aeu x;]. *)
Definition fresh (n : Z) : cells := repeat None (Z.to_nat n).

(** Fully written memory. *)
Definition init (a : list Z) : cells := map Some a.

(** [Aeu {}] / [blockLine {}] / [blocks = {}]: l.142, 175, 442, 480 *)
Definition czeros (n : Z) : cells := init (zeros n).

(** The cell at index [i] (not modelled code: the list access behind [blocks[i]]). *)
Definition cnth (c : cells) (i : Z) : option Z := if i <? 0 then None else nth (Z.to_nat i) c None.
(** Replacing one cell (the list update behind [blocks[i] = v]). *)
Fixpoint cupd (c : cells) (i : nat) (v : Z) : cells :=
  match c, i with
  | [], _ => []
  | _ :: t, O => Some v :: t
  | x :: t, S j => x :: cupd t j v
  end.
(** The bounds check shared by reads and writes. *)
Definition cin (c : cells) (i : Z) : bool := (0 <=? i) && (i <? len c).

(** [blocks[i]] as an rvalue *)
Definition cget (c : cells) (i : Z) : outcome Z :=
  if cin c i then match cnth c i with Some v => Ok v | None => Err Indeterminate end else Err OutOfBounds.
(** [blocks[i] = v] *)
Definition cset (c : cells) (i v : Z) : outcome cells :=
  if cin c i then Ok (cupd c (Z.to_nat i) v) else Err OutOfBounds.
(** [Aeu t = x;] (l.151) and [t = x;] (l.158): the defaulted copies read every block. *)
Definition determinate (c : cells) : bool := forallb (fun o => match o with Some _ => true | None => false end) c.
Definition copy (c : cells) : outcome cells := if determinate c then Ok c else Err Indeterminate.

(** ** Helpers *)

(** l.113-120 addLine: returns (dst, carryOut). *)
Definition c_addLine (n : Z) (dst src : cells) : outcome (cells * Z) :=
  forU 0 n (fun i '(dst, carryOut) =>
    d <- cget dst i ;; s <- cget src i ;;
    let sum := u64 (d + s + carryOut) in
    dst' <- cset dst i (u32 (sum mod blockBase)) ;;
    Ok (dst', sum / blockBase)) (dst, 0).

(** l.127-134 makeComplement: returns (line, carryOut). *)
Definition c_makeComplement (n : Z) (line : cells) : outcome (cells * Z) :=
  forU 0 n (fun i '(line, carryOut) =>
    x <- cget line i ;;
    let sum := u64 (blockBase - 1 - x + carryOut) in
    line' <- cset line i (u32 (sum mod blockBase)) ;;
    Ok (line', sum / blockBase)) (line, 1).

(** ** Constructors *)

(** l.167-176 Aeu(Integral value), Integral unsigned.  The new object has no initialiser: [fresh]. *)
Definition c_from_unsigned (n : Z) (value : Z) : outcome (cells) :=
  if negb (value =? 0) then
    '(b, _) <- forU 0 n (fun i '(blocks, tValue) =>
      blocks' <- cset blocks i (u32 (tValue mod blockBase)) ;;
      Ok (blocks', tValue / blockBase)) (fresh n, u64 value) ;;
    Ok b
  else Ok (czeros n).

(** l.142 with value-initialisation, [Aeu {}]. *)
Definition c_aeu_zero (n : Z) : cells := czeros n.

(** ** Unary operators *)

(** l.280 *)
Definition c_op_plus (a : cells) : outcome (cells) := copy a.

(** l.287-289 *)
Definition c_op_neg (n : Z) (a : cells) : outcome (cells) :=
  result <- copy a ;; '(r, _) <- c_makeComplement n result ;; Ok r.

(** l.295-303 prefix ++ *)
Definition c_op_inc (n : Z) (a : cells) : outcome (cells) :=
  x <- forUx 0 n (fun i blocks =>
    b <- cget blocks i ;;
    if b <? blockMax then
      blocks' <- cset blocks i (u32 (b + 1)) ;; Ok (Exit blocks')
    else
      blocks' <- cset blocks i 0 ;; Ok (Next blocks')) a ;;
  match x with Next r => Ok r | Exit r => Ok r end.

(** l.309 postfix ++: (returned old value, new value of the object) *)
Definition c_op_post_inc (n : Z) (a : cells) : outcome (cells * cells) :=
  old <- copy a ;; r <- c_op_inc n a ;; Ok (old, r).

(** l.315-323 prefix -- *)
Definition c_op_dec (n : Z) (a : cells) : outcome (cells) :=
  x <- forUx 0 n (fun i blocks =>
    b <- cget blocks i ;;
    if b >? 0 then
      blocks' <- cset blocks i (u32 (b - 1)) ;; Ok (Exit blocks')
    else
      blocks' <- cset blocks i blockMax ;; Ok (Next blocks')) a ;;
  match x with Next r => Ok r | Exit r => Ok r end.

(** l.329 postfix -- *)
Definition c_op_post_dec (n : Z) (a : cells) : outcome (cells * cells) :=
  old <- copy a ;; r <- c_op_dec n a ;; Ok (old, r).

(** ** Addition, subtraction *)

(** l.363-369 operator+=(Aeu&, Unsigned); [t] is the template argument [Unsigned]. *)
Definition c_add_assign_u (n : Z) (t : uty) (a : cells) (addendum : Z) : outcome (cells) :=
  '(r, _) <- forU 0 n (fun i '(blocks, addendum) =>
    b <- cget blocks i ;;
    let currentSum := u64 (b + u64 addendum) in
    blocks' <- cset blocks i (u32 (currentSum mod blockBase)) ;;
    Ok (blocks', ucast t (currentSum / blockBase))) (a, addendum) ;;
  Ok r.
(** l.341-343 operator+(const Aeu&, Unsigned): copy, then += *)
Definition c_op_add_u (n : Z) (t : uty) (a : cells) (addendum : Z) : outcome (cells) := result <- copy a ;; c_add_assign_u n t result addendum.

(** l.377-379 operator+=(Aeu&, const Aeu&) *)
Definition c_add_assign (n : Z) (a b : cells) : outcome (cells) :=
  '(r, _) <- c_addLine n a b ;; Ok r.
(** l.352-354 *)
Definition c_op_add (n : Z) (a b : cells) : outcome (cells) := result <- copy a ;; c_add_assign n result b.

(** l.401-403 operator-=: [subtraction += -subtrahend] *)
Definition c_sub_assign (n : Z) (a b : cells) : outcome (cells) :=
  nb <- c_op_neg n b ;; c_add_assign n a nb.
(** l.391-393 *)
Definition c_op_sub (n : Z) (a b : cells) : outcome (cells) := result <- copy a ;; c_sub_assign n result b.

(** ** Observers needed by the arithmetic *)

(** l.1048-1052 filledBlocksNumber *)
Definition c_filledBlocksNumber (n : Z) (a : cells) : outcome Z :=
  x <- forDx n 0 (fun i (_ : unit) =>
    b <- cget a i ;;
    if negb (b =? 0) then Ok (Exit (i + 1)) else Ok (Next tt)) tt ;;
  match x with Exit r => Ok r | Next _ => Ok 0 end.

(** l.1041 isZero *)
Definition c_isZero (n : Z) (a : cells) : outcome bool :=
  f <- c_filledBlocksNumber n a ;; Ok (f =? 0).

(** l.1027, 1034 *)
Definition c_isOdd (a : cells) : outcome bool := b <- cget a 0 ;; Ok (Z.land 1 b =? 1).
(** Aeu.h l.1034 *)
Definition c_isEven (a : cells) : outcome bool := b <- cget a 0 ;; Ok (Z.land 1 b =? 0).

(** ** Multiplication *)

(** l.448-454 (= l.486-492): the inner loop; adds [tBlock * digit] into [buffer] at offset [i];
    returns (buffer, carryOut). *)
Definition c_mul_inner (n i tBlock : Z) (digit : Z -> outcome Z) (smallerLength : Z) (buffer : cells)
  : outcome (cells * Z) :=
  forU 0 (Z.min smallerLength (n - i)) (fun j '(buffer, carryOut) =>
    f <- digit j ;;
    let product := u64 (tBlock * f + carryOut) in
    b <- cget buffer (i + j) ;;
    let partial := u64 (b + product mod blockBase) in
    let carryOut' := u64 (product / blockBase + partial / blockBase) in
    buffer' <- cset buffer (i + j) (u32 (partial mod blockBase)) ;;
    Ok (buffer', carryOut')) (buffer, 0).

(** l.444-457 (and 482-495): the schoolbook double loop over [longerLength] blocks [tBlock] and
    [smallerLength] digits [digit j] of the other factor.  [guard]: the extra test
    [smallerLength < blocksNumber] of l.493, absent in l.455. *)
Definition c_mul_lines (n : Z) (guard : bool) (longer : cells) (longerLength : Z)
    (digit : Z -> outcome Z) (smallerLength : Z) : outcome (cells) :=
  forU 0 longerLength (fun i buffer =>
    tBlock <- cget longer i ;;
    '(buffer, carryOut) <- c_mul_inner n i tBlock digit smallerLength buffer ;;
    if guard && (smallerLength + i <? n) then
      b <- cget buffer (smallerLength + i) ;;
      cset buffer (smallerLength + i) (u32 (b + u32 carryOut))
    else Ok buffer) (czeros n).
(** Note on the inner bound: the source tests [j < smallerLength && j < buffer.size() - i] (l.448, l.486);
    both tests are against loop-invariant bounds, so the loop runs for
    [j] from 0 below [Z.min smallerLength (n - i)].  [i < longerLength <= n], so [buffer.size() - i] does not wrap. *)

(** l.438-469 operator*=(Aeu&, Unsigned) *)
Definition c_mul_assign_u (n : Z) (t : uty) (a : cells) (factor : Z) : outcome (cells) :=
  if is_uint64_t t then
    longerLength <- c_filledBlocksNumber n a ;;
    let smallerLength := if factor >? blockMax then 2 else 1 in
    c_mul_lines n true a longerLength
      (fun j => Ok (Z.land (Z.shiftr factor (blockBitLength * j)) (2 ^ 32 - 1))) smallerLength
  else
    '(r, _) <- forU 0 n (fun i '(blocks, carryOut) =>
      b <- cget blocks i ;;
      let product := u64 (u64 (u64 factor * b) + carryOut) in
      blocks' <- cset blocks i (u32 (product mod blockBase)) ;;
      Ok (blocks', product / blockBase)) (a, 0) ;;
    Ok r.
(** l.415-417 *)
Definition c_op_mul_u (n : Z) (t : uty) (a : cells) (factor : Z) : outcome (cells) := result <- copy a ;; c_mul_assign_u n t result factor.

(** l.478-498 the lambda multiplyLines *)
Definition c_multiplyLines (n : Z) (longerLine : cells) (longerLength : Z)
    (smallerLine : cells) (smallerLength : Z) : outcome (cells) :=
  c_mul_lines n (smallerLength <? n) longerLine longerLength (cget smallerLine) smallerLength.

(** l.477-507 operator*=(Aeu&, const Aeu&) *)
Definition c_mul_assign (n : Z) (a b : cells) : outcome (cells) :=
  thisLength <- c_filledBlocksNumber n a ;;
  valueLength <- c_filledBlocksNumber n b ;;
  if thisLength >? valueLength then c_multiplyLines n a thisLength b valueLength
  else c_multiplyLines n b valueLength a thisLength.
(** l.426-428 *)
Definition c_op_mul (n : Z) (a b : cells) : outcome (cells) := result <- copy a ;; c_mul_assign n result b.

(** ** Bitwise operators *)

(** l.566-571 operator~ ; [result] (l.567) has no initialiser. *)
Definition c_op_not (n : Z) (a : cells) : outcome (cells) :=
  forU 0 n (fun i result => b <- cget a i ;; cset result i (not32 b)) (fresh n).

(** l.590-594, 613-617, 636-640: the common loop of ^=, &=, |= *)
Definition c_bitwise_assign (op : Z -> Z -> Z) (n : Z) (a b : cells) : outcome (cells) :=
  forU 0 n (fun i left => x <- cget left i ;; y <- cget b i ;; cset left i (op x y)) a.
Definition c_xor_assign := c_bitwise_assign Z.lxor.   (* l.590-594 *)
Definition c_and_assign := c_bitwise_assign Z.land.   (* l.613-617 *)
Definition c_or_assign  := c_bitwise_assign Z.lor.    (* l.636-640 *)
Definition c_op_xor (n : Z) (a b : cells) := result <- copy a ;; c_xor_assign n result b.                  (* l.580-582: copy, then ^= *)
Definition c_op_and (n : Z) (a b : cells) := result <- copy a ;; c_and_assign n result b.                  (* l.603-605 *)
Definition c_op_or (n : Z) (a b : cells) := result <- copy a ;; c_or_assign n result b.                   (* l.626-628 *)

(** l.662-678 operator<<= *)
Definition c_shl_assign (n : Z) (value : cells) (bitShift : Z) : outcome (cells) :=
  if (bitShift >=? 32 * n) || (bitShift =? 0) then Ok value else
  let quotient := bitShift / blockBitLength in
  let remainder := bitShift mod blockBitLength in
  let r1 := b2z (negb (remainder =? 0)) in                               (* remainder ? 1U : 0U *)
  let stamp := u32 (u64 (Z.shiftl 1 (blockBitLength - remainder)) - 1) in
  let minI := quotient + r1 in
  value <- forD n minI (fun i value =>
    x <- cget value (i - quotient) ;;
    y <- cget value (i - quotient - r1) ;;
    cset value i
      (Z.lor (u32 (Z.shiftl (Z.land x stamp) remainder))
             (Z.shiftr (Z.land y (not32 stamp)) ((blockBitLength - remainder) mod blockBitLength)))) value ;;
  x0 <- cget value 0 ;;
  value <- cset value quotient (u32 (Z.shiftl (Z.land x0 stamp) remainder)) ;;
  forU 0 quotient (fun i value => cset value i 0) value.
(** l.650-652 *)
Definition c_op_shl (n : Z) (value : cells) (bitShift : Z) : outcome (cells) := result <- copy value ;; c_shl_assign n result bitShift.

(** l.700-714 operator>>= *)
Definition c_shr_assign (n : Z) (value : cells) (bitShift : Z) : outcome (cells) :=
  if (bitShift >=? 32 * n) || (bitShift =? 0) then Ok value else
  let quotient := bitShift / blockBitLength in
  let remainder := bitShift mod blockBitLength in
  let r1 := b2z (negb (remainder =? 0)) in
  let stamp := u32 (Z.shiftl 1 remainder - 1) in
  value <- forU 0 (n - (quotient + r1)) (fun i value =>
    x <- cget value (i + quotient + r1) ;;
    y <- cget value (i + quotient) ;;
    cset value i
      (Z.lor (u32 (Z.shiftl (Z.land x stamp) ((blockBitLength - remainder) mod blockBitLength)))
             (Z.shiftr (Z.land y (not32 stamp)) remainder))) value ;;
  xl <- cget value (n - 1) ;;
  value <- cset value (n - 1 - quotient) (Z.shiftr (Z.land xl (not32 stamp)) remainder) ;;
  forU (n - quotient) n (fun i value => cset value i 0) value.
(** l.688-690 *)
Definition c_op_shr (n : Z) (value : cells) (bitShift : Z) : outcome (cells) := result <- copy value ;; c_shr_assign n result bitShift.

(** ** Accessors *)

(** l.896-906 *)
Definition c_setBit (cfg : config) (n : Z) (a : cells) (index : Z) (bit : bool) : outcome (cells) :=
  if negb (cfg_unsafe cfg) && (index >=? 32 * n) then Ok a else
  let blockNumber := index / blockBitLength in
  let bitNumber := index mod blockBitLength in
  _ <- assert_ cfg ((blockNumber <? n) && (bitNumber <? blockBitLength)) ;;
  b <- cget a blockNumber ;;
  if bit then cset a blockNumber (Z.lor b (Z.shiftl 1 bitNumber))
  else cset a blockNumber (Z.land b (not32 (Z.shiftl 1 bitNumber))).

(** l.915-922 *)
Definition c_getBit (cfg : config) (n : Z) (a : cells) (index : Z) : outcome bool :=
  if negb (cfg_unsafe cfg) && (index >=? 32 * n) then Ok false else
  let blockNumber := index / blockBitLength in
  let bitNumber := index mod blockBitLength in
  _ <- assert_ cfg ((blockNumber <? n) && (bitNumber <? blockBitLength)) ;;
  b <- cget a blockNumber ;;
  Ok (negb (Z.land b (Z.shiftl 1 bitNumber) =? 0)).

(** l.930-937; note the test [index > blocksNumber * sizeof(block)] *)
Definition c_setByte (cfg : config) (n : Z) (a : cells) (index byte : Z) : outcome (cells) :=
  if negb (cfg_unsafe cfg) && (index >? n * blockBytes) then Ok a else
  let blockNumber := index / blockBytes in
  let byteInBlock := index mod blockBytes in
  let shift := byteInBlock * bitsInByte in
  _ <- assert_ cfg ((blockNumber <? n) && (byteInBlock <? blockBytes)) ;;
  b <- cget a blockNumber ;;
  a <- cset a blockNumber (Z.land b (not32 (u32 (Z.shiftl 255 shift)))) ;;
  b <- cget a blockNumber ;;
  cset a blockNumber (Z.lor b (u32 (Z.shiftl byte shift))).

(** l.946-953 *)
Definition c_getByte (cfg : config) (n : Z) (a : cells) (index : Z) : outcome Z :=
  if negb (cfg_unsafe cfg) && (index >? n * blockBytes) then Ok 0 else
  let blockNumber := index / blockBytes in
  let byteInBlock := index mod blockBytes in
  let shift := byteInBlock * bitsInByte in
  _ <- assert_ cfg ((blockNumber <? n) && (byteInBlock <? blockBytes)) ;;
  b <- cget a blockNumber ;;
  Ok (u8 (Z.shiftr (Z.land b (u32 (Z.shiftl 255 shift))) shift)).

(** l.961-966 *)
Definition c_setBlock (cfg : config) (n : Z) (a : cells) (index block : Z) : outcome (cells) :=
  if negb (cfg_unsafe cfg) && (index >=? n) then Ok a else cset a index block.

(** l.975-980 *)
Definition c_getBlock (cfg : config) (n : Z) (a : cells) (index : Z) : outcome Z :=
  if negb (cfg_unsafe cfg) && (index >=? n) then Ok 0 else cget a index.

(** l.988-990 (= l.1005-1007, 1317-1319, 1398-1400): index of the last non-zero block, 0 if none:
    [for(lastBlock = n - 1; lastBlock > 0 && blocks[lastBlock] == 0; --lastBlock);] *)
Definition c_lastBlockIndex (n : Z) (a : cells) : outcome Z :=
  x <- forDx n 1 (fun i (_ : unit) =>
    b <- cget a i ;;
    if b =? 0 then Ok (Next tt) else Ok (Exit i)) tt ;;
  match x with Exit i => Ok i | Next _ => Ok 0 end.

(** l.987-997 *)
Definition c_byteCount (n : Z) (a : cells) : outcome Z :=
  lastBlock <- c_lastBlockIndex n a ;;
  x <- forDx blockBytes 0 (fun byteN (_ : unit) =>
    b <- cget a lastBlock ;;
    if negb (byteOf b byteN =? 0) then Ok (Exit (lastBlock * blockBytes + byteN + 1)) else Ok (Next tt)) tt ;;
  match x with Exit r => Ok r | Next _ => Ok (lastBlock * blockBytes) end.

(** l.1004-1020 *)
Definition c_bitCount (n : Z) (a : cells) : outcome Z :=
  lastBlock <- c_lastBlockIndex n a ;;
  x <- forDx blockBytes 0 (fun byteN (_ : unit) =>
    b <- cget a lastBlock ;;
    let byte := byteOf b byteN in
    if byte =? 0 then Ok (Next tt)
    else
      y <- forDx bitsInByte 0 (fun bitN (_ : unit) =>
        if negb (Z.shiftr (Z.land byte (Z.shiftl 1 bitN)) bitN =? 0)
        then Ok (Exit ((lastBlock * blockBytes + byteN) * bitsInByte + bitN + 1))
        else Ok (Next tt)) tt ;;
      match y with
      | Exit r => Ok (Exit r)
      | Next _ => Ok (Exit (((lastBlock - 1) * blockBytes + byteN) * bitsInByte))
      end) tt ;;
  match x with Exit r => Ok r | Next _ => Ok (lastBlock * blockBytes) end.

(** ** Comparison *)

(** l.805-829 compareTo(const Aeu<otherBitness>&): [n], [m] the block counts of this and other. *)
Definition c_compareTo (cfg : config) (n m : Z) (a b : cells) : outcome comparison_t :=
  let lowerBlockBorder := if n <? m then n else m in
  x <- forDx lowerBlockBorder 0 (fun i (_ : unit) =>
    thisBlock <- cget a i ;; otherBlock <- c_getBlock cfg m b i ;;
    if negb (thisBlock =? otherBlock)
    then Ok (Exit (if thisBlock >? otherBlock then CGreater else CLess))
    else Ok (Next tt)) tt ;;
  match x with
  | Exit c => Ok c
  | Next _ =>
      if negb (32 * m =? n * blockBitLength) then
        y <- (if m >? n then
                forDx m lowerBlockBorder (fun i (_ : unit) =>
                  o <- c_getBlock cfg m b i ;;
                  if negb (o =? 0) then Ok (Exit CLess) else Ok (Next tt)) tt
              else if n >? m then
                forDx n lowerBlockBorder (fun i (_ : unit) =>
                  t <- cget a i ;;
                  if negb (t =? 0) then Ok (Exit CGreater) else Ok (Next tt)) tt
              else Ok (Next tt)) ;;
        match y with Exit c => Ok c | Next _ => Ok CEqual end
      else Ok CEqual
  end.

(** l.768-781 compareTo(Unsigned), 8-, 16- and 32-bit types *)
Definition c_compareTo_u32 (n : Z) (a : cells) (other : Z) : outcome comparison_t :=
  f <- c_filledBlocksNumber n a ;;
  if f >? 1 then Ok CGreater else
  let cmp := u32 other in
  b0 <- cget a 0 ;;
  if b0 >? cmp then Ok CGreater else if b0 <? cmp then Ok CLess else Ok CEqual.

(** l.790-796 compareTo(uint64_t) *)
Definition c_compareTo_u64 (n : Z) (a : cells) (other : Z) : outcome comparison_t :=
  f <- c_filledBlocksNumber n a ;;
  if f >? 2 then Ok CGreater else
  b1 <- cget a 1 ;; b0 <- cget a 0 ;;
  let base := Z.lor (u64 (Z.shiftl b1 blockBitLength)) b0 in
  if base >? other then Ok CGreater else if base <? other then Ok CLess else Ok CEqual.

(** l.741-743 operator==(const Aeu&, const Aeu<otherBitness>&) *)
Definition c_op_eq (cfg : config) (n m : Z) (a b : cells) : outcome bool :=
  c <- c_compareTo cfg n m a b ;; Ok (cmp_eqb c CEqual).

(** l.727-729 operator==(const Aeu&, Unsigned), sizeof < 8 *)
Definition c_op_eq_u32 (n : Z) (a : cells) (other : Z) : outcome bool :=
  f <- c_filledBlocksNumber n a ;;
  if f <=? 1 then b0 <- cget a 0 ;; Ok (u32 other =? b0) else Ok false.

(** l.730-732 operator==(const Aeu&, uint64_t) *)
Definition c_op_eq_u64 (n : Z) (a : cells) (other : Z) : outcome bool :=
  f <- c_filledBlocksNumber n a ;;
  if f <=? 2 then
    b1 <- cget a 1 ;; b0 <- cget a 0 ;;
    Ok (Z.lor (u64 (Z.shiftl b1 blockBitLength)) b0 =? other)
  else Ok false.

(** Aeu.h l.850-862 *)
Definition c_op_spaceship (cfg : config) (n m : Z) (a b : cells) : outcome ordering_t :=
  c <- c_compareTo cfg n m a b ;; Ok (to_ordering c).
(** The relational operators the C++20 compiler rewrites to [<=>] ([(a <=> b) < 0] etc.; in pre-C++20 /
    CUDA mode l.838-842 define them by [compareTo], with the same results). *)
Definition c_op_lt cfg n m a b := o <- c_op_spaceship cfg n m a b ;; Ok (match o with OLess => true | _ => false end).
(** Aeu.h l.850-862, 841 *)
Definition c_op_gt cfg n m a b := o <- c_op_spaceship cfg n m a b ;; Ok (match o with OGreater => true | _ => false end).
(** Aeu.h l.850-862, 840 *)
Definition c_op_le cfg n m a b := o <- c_op_spaceship cfg n m a b ;; Ok (match o with OGreater => false | _ => true end).
(** Aeu.h l.850-862, 842 *)
Definition c_op_ge cfg n m a b := o <- c_op_spaceship cfg n m a b ;; Ok (match o with OLess => false | _ => true end).
(** Aeu.h l.741-745, rewritten from == by C++20 *)
Definition c_op_ne cfg n m a b := e <- c_op_eq cfg n m a b ;; Ok (negb e).
(** l.870-883 operator<=>(const Unsigned&) with a built-in operand: dispatches to the [compareTo] overload
    at l.768 (types narrower than 8 bytes) or l.790 (uint64_t, and by conversion any other 64-bit type). *)
Definition c_op_spaceship_u32 (n : Z) (a : cells) (other : Z) : outcome ordering_t :=
  c <- c_compareTo_u32 n a other ;; Ok (to_ordering c).
(** Aeu.h l.871-883 with l.790 *)
Definition c_op_spaceship_u64 (n : Z) (a : cells) (other : Z) : outcome ordering_t :=
  c <- c_compareTo_u64 n a other ;; Ok (to_ordering c).

(** ** Division and number theory *)

(** l.1087-1105 divide(number, divisor, quotient&, remainder&).  [q0], [r0]: the memory of the two output objects
    before the call; l.1090 assigns [Aeu {}] to both before anything is read from them.  The outputs are objects
    distinct from the inputs (AliasModel.v has the shared ones).  Returns (quotient, remainder). *)
Definition c_divide (cfg : config) (n : Z) (number divisor q0 r0 : cells) : outcome (cells * cells) :=
  ratio <- c_compareTo cfg n n number divisor ;;
  quotient <- copy (c_aeu_zero n) ;;
  remainder <- copy (c_aeu_zero n) ;;
  match ratio with
  | CGreater =>
      f <- c_filledBlocksNumber n number ;;
      let bitsUsed := f * blockBitLength in
      forD bitsUsed 0 (fun i '(quotient, remainder) =>
        remainder <- c_shl_assign n remainder 1 ;;
        bit <- c_getBit cfg n number i ;;
        remainder <- c_setBit cfg n remainder 0 bit ;;
        ge <- c_op_ge cfg n n remainder divisor ;;
        if ge then
          remainder <- c_sub_assign n remainder divisor ;;
          quotient <- c_setBit cfg n quotient i true ;;
          Ok (quotient, remainder)
        else Ok (quotient, remainder)) (quotient, remainder)
  | CLess => r <- copy number ;; Ok (quotient, r)
  | _ => one <- c_from_unsigned n 1 ;; q <- copy one ;; Ok (q, remainder)
  end.

(** l.1114-1116 divide(number, divisor): [pair<Aeu, Aeu> results;] value-initialises both members *)
Definition c_divide_pair (cfg : config) (n : Z) (number divisor : cells) : outcome (cells * cells) :=
  c_divide cfg n number divisor (czeros n) (czeros n).

(** l.520-522 operator/: [Aeu quotient, _;] *)
Definition c_op_div cfg n a b := '(q, _) <- c_divide cfg n a b (fresh n) (fresh n) ;; Ok q.
(** l.543-545 operator%: [Aeu _, remainder;] *)
Definition c_op_mod cfg n a b := '(_, r) <- c_divide cfg n a b (fresh n) (fresh n) ;; Ok r.
(** l.531 *)
Definition c_div_assign cfg n a b := q <- c_op_div cfg n a b ;; copy q.
(** l.553-555 *)
Definition c_mod_assign cfg n a b := r <- c_op_mod cfg n a b ;; copy r.

(** l.1174-1177: the loop of gcd(first, second); the state is (gcd, quotient, remainder) *)
Definition c_gcd_loop (cfg : config) (n : Z) (fuel : nat) (st : cells * cells * cells) : outcome cells :=
  whileF fuel (fun '(g, quotient, remainder) =>
    z <- c_op_eq_u32 n remainder 0 ;;
    if z then Ok (Exit g)
    else
      tGcd <- copy g ;; g <- copy remainder ;;
      '(quotient, remainder) <- c_divide cfg n tGcd g quotient remainder ;;
      Ok (Next (g, quotient, remainder))) st.
(** l.1162-1181 gcd(first, second); l.1163 declares [gcd], [quotient], [remainder] without initialisers *)
Definition c_gcd (cfg : config) (fuel : nat) (n : Z) (first second : cells) : outcome cells :=
  let quotient := fresh n in let remainder := fresh n in
  ratio <- c_compareTo cfg n n first second ;;
  st <- (match ratio with
         | CGreater => g <- copy second ;;
                       '(q, r) <- c_divide cfg n first second quotient remainder ;; Ok (g, q, r)
         | _ => g <- copy first ;;
                '(q, r) <- c_divide cfg n second first quotient remainder ;; Ok (g, q, r)
         end) ;;
  c_gcd_loop cfg n fuel st.

(** l.1128, 1140: the local objects of gcd(first, second, bezoutX&, bezoutY&) and its two outputs *)
Record cegcd := mk_cegcd { cg_gcd : cells; cg_q : cells; cg_r : cells;
                           cg_x : cells; cg_y : cells; cg_tx : cells; cg_ty : cells }.
(** l.1140-1147, the loop body *)
Definition c_egcd_body (cfg : config) (n : Z) (s : cegcd) : outcome (step cegcd cegcd) :=
  z <- c_op_eq_u32 n (cg_r s) 0 ;;
  if z then Ok (Exit s)
  else
    tGcd <- copy (cg_gcd s) ;; g <- copy (cg_r s) ;;
    t <- copy (cg_x s) ;;
    p <- c_op_mul n (cg_q s) (cg_x s) ;; d <- c_op_sub n (cg_tx s) p ;; x' <- copy d ;; tx' <- copy t ;;
    t <- copy (cg_y s) ;;
    p <- c_op_mul n (cg_q s) (cg_y s) ;; d <- c_op_sub n (cg_ty s) p ;; y' <- copy d ;; ty' <- copy t ;;
    '(q', r') <- c_divide cfg n tGcd g (cg_q s) (cg_r s) ;;
    Ok (Next (mk_cegcd g q' r' x' y' tx' ty')).
(** l.1073-1075 swap *)
Definition c_swap (a b : cells) : outcome (cells * cells) :=
  t <- copy b ;; b' <- copy a ;; a' <- copy t ;; Ok (a', b').
(** l.1127-1153 gcd(first, second, bezoutX&, bezoutY&): returns (gcd, bezoutX, bezoutY); [x0], [y0] are the
    contents of the two outputs before the call *)
Definition c_gcd_ext (cfg : config) (fuel : nat) (n : Z) (first second x0 y0 : cells)
  : outcome (cells * cells * cells) :=
  let quotient := fresh n in let remainder := fresh n in
  ratio <- c_compareTo cfg n n first second ;;
  '(g, q, r) <- (match ratio with
         | CGreater => g <- copy second ;;
                       '(q, r) <- c_divide cfg n first second quotient remainder ;; Ok (g, q, r)
         | _ => g <- copy first ;;
                '(q, r) <- c_divide cfg n second first quotient remainder ;; Ok (g, q, r)
         end) ;;
  bx <- c_from_unsigned n 0 ;; bx <- copy bx ;; by_ <- c_from_unsigned n 1 ;; by_ <- copy by_ ;;
  tx <- c_from_unsigned n 1 ;; ty <- c_from_unsigned n 0 ;;
  s <- whileF fuel (c_egcd_body cfg n) (mk_cegcd g q r bx by_ tx ty) ;;
  if negb (cmp_eqb ratio CGreater)
  then '(x, y) <- c_swap (cg_x s) (cg_y s) ;; Ok (cg_gcd s, x, y)
  else Ok (cg_gcd s, cg_x s, cg_y s).

(** l.1189 lcm *)
Definition c_lcm (cfg : config) (fuel : nat) (n : Z) (first second : cells) : outcome cells :=
  g <- c_gcd cfg fuel n first second ;;
  q <- c_op_div cfg n first g ;;
  c_op_mul n q second.

(** l.1210-1218 (= l.1228-1236): the square-and-multiply loop.  [m]: block count of the exponent; the counter is
    an integer here, see AeuModel.v *)
Definition c_powm_loop (cfg : config) (n m : Z) (power modulo : cells) (st : cells * cells)
  : outcome (cells * cells) :=
  f <- c_filledBlocksNumber m power ;;
  forU 0 (f * blockBitLength) (fun iteration '(output, b) =>
    bit <- c_getBit cfg m power iteration ;;
    output <- (if bit then p <- c_op_mul n output b ;; '(_, r) <- c_divide_pair cfg n p modulo ;; copy r
               else Ok output) ;;
    p <- c_op_mul n b b ;;
    '(_, r) <- c_divide_pair cfg n p modulo ;;
    b <- copy r ;;
    Ok (output, b)) st.

(** l.1224-1239 powm(base, power, mod), one precision *)
Definition c_powm (cfg : config) (n : Z) (base power mod_ : cells) : outcome cells :=
  output <- c_from_unsigned n 1 ;;
  '(_, b) <- c_divide_pair cfg n base mod_ ;;
  '(output, _) <- c_powm_loop cfg n n power mod_ (output, b) ;;
  Ok output.

(** l.1201-1221 powm<powerBitness>(base, power, modulo) *)
Definition c_powm_x (cfg : config) (n m : Z) (base power modulo : cells) : outcome cells :=
  is1 <- c_op_eq_u32 n base 1 ;;
  if is1 then copy base else
  is0 <- c_op_eq_u32 n base 0 ;;
  if is0 then c_from_unsigned n 1 else
  output <- c_from_unsigned n 1 ;;
  '(_, b) <- c_divide_pair cfg n base modulo ;;
  '(output, _) <- c_powm_loop cfg n m power modulo (output, b) ;;
  Ok output.

(** l.1248 power2 *)
Definition c_power2 (cfg : config) (n : Z) (power : Z) : outcome cells :=
  c_setBit cfg n (c_aeu_zero n) power true.

(** l.1256-1265 squareRoot; [x] (l.1257) has no initialiser: the state is (x, y) *)
Definition c_squareRoot (cfg : config) (fuel : nat) (n : Z) (a : cells) : outcome cells :=
  c <- c_bitCount n a ;;
  y <- c_power2 cfg n ((c + 1) / 2) ;;
  whileF fuel (fun '(x, y) =>
    x <- copy y ;;
    q <- c_op_div cfg n a x ;; s <- c_op_add n x q ;; t <- c_op_shr n s 1 ;; y <- copy t ;;
    lt <- c_op_lt cfg n n y x ;;
    if lt then Ok (Next (x, y)) else Ok (Exit x)) (fresh n, y).

(** ** Casts *)

(** l.1475-1478 integralCast<Integral> *)
Definition c_integralCast (t : ity) (a : cells) : outcome Z :=
  b1 <- cget a 1 ;; b0 <- cget a 0 ;;
  let value := Z.lor (u64 (Z.shiftl b1 blockBitLength)) b0 in
  Ok (icast t value).

(** l.1489-1497 precisionCast<newBitness>; [m]: block count of the result *)
Definition c_precisionCast (cfg : config) (n m : Z) (a : cells) : outcome (cells) :=
  let blockBoarder := if 32 * m >? 32 * n then n else m in
  forU 0 blockBoarder (fun blockIdx result =>
    b <- c_getBlock cfg n a blockIdx ;;
    c_setBlock cfg m result blockIdx b) (czeros m).
