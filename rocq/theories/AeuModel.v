(** * AeuModel: the unsigned class [Aeu<bitness>], function by function.

    All line numbers refer to /repo/include/AesiMultiprecision/Aeu.h.
    An [Aeu<32*n>] object is its member [blocks] (l.103), a [list Z] of [n = blocksNumber] (l.87) blocks.
    A function that mutates an object through a reference returns the new contents.
    [size_t] values are integers; where the source relies on [size_t] wrap-around this is written out.
    Reading [l.] numbers: the C++ statement modelled by each line is cited in the definition's comment. *)
From Verif Require Export Base.
Open Scope Z_scope.

(** l.66-69 *)
Definition blockBitLength : Z := 32.
(** Aeu.h l.68 *)
Definition blockBase : Z := 2 ^ 32.
(** Aeu.h l.69 *)
Definition blockMax : Z := 2 ^ 32 - 1.
(** Aeu.h l.67: block is uint32_t *)
Definition blockBytes : Z := 4.          (* sizeof(block) *)
(** Aeu.h l.66 *)
Definition bitsInByte : Z := 8.

(** l.75 enum class Comparison *)
Inductive comparison_t := CEqual | CLess | CGreater | CEquivalent.
(** Aeu.h l.75: == on the enumeration *)
Definition cmp_eqb (a b : comparison_t) : bool :=
  match a, b with
  | CEqual, CEqual | CLess, CLess | CGreater, CGreater | CEquivalent, CEquivalent => true
  | _, _ => false
  end.

(** ** Helpers *)

(** l.113-120 addLine: returns (dst, carryOut). *)
Definition addLine (n : Z) (dst src : list Z) : outcome (list Z * Z) :=
  forU 0 n (fun i '(dst, carryOut) =>
    d <- aget dst i ;; s <- aget src i ;;
    let sum := u64 (d + s + carryOut) in
    dst' <- aset dst i (u32 (sum mod blockBase)) ;;
    Ok (dst', sum / blockBase)) (dst, 0).

(** l.127-134 makeComplement: returns (line, carryOut). *)
Definition makeComplement (n : Z) (line : list Z) : outcome (list Z * Z) :=
  forU 0 n (fun i '(line, carryOut) =>
    x <- aget line i ;;
    let sum := u64 (blockBase - 1 - x + carryOut) in
    line' <- aset line i (u32 (sum mod blockBase)) ;;
    Ok (line', sum / blockBase)) (line, 1).

(** ** Constructors *)

(** l.167-176 Aeu(Integral value), Integral unsigned.  [junk]: the uninitialised memory of the new object. *)
Definition from_unsigned (n : Z) (junk : list Z) (value : Z) : outcome (list Z) :=
  if negb (value =? 0) then
    '(b, _) <- forU 0 n (fun i '(blocks, tValue) =>
      blocks' <- aset blocks i (u32 (tValue mod blockBase)) ;;
      Ok (blocks', tValue / blockBase)) (junk, u64 value) ;;
    Ok b
  else Ok (zeros n).

(** l.142 with value-initialisation, [Aeu {}]. *)
Definition aeu_zero (n : Z) : list Z := zeros n.

(** ** Unary operators *)

(** l.280 *)
Definition op_plus (a : list Z) : outcome (list Z) := Ok a.

(** l.287-289 *)
Definition op_neg (n : Z) (a : list Z) : outcome (list Z) :=
  '(r, _) <- makeComplement n a ;; Ok r.

(** l.295-303 prefix ++ *)
Definition op_inc (n : Z) (a : list Z) : outcome (list Z) :=
  x <- forUx 0 n (fun i blocks =>
    b <- aget blocks i ;;
    if b <? blockMax then
      blocks' <- aset blocks i (u32 (b + 1)) ;; Ok (Exit blocks')
    else
      blocks' <- aset blocks i 0 ;; Ok (Next blocks')) a ;;
  match x with Next r => Ok r | Exit r => Ok r end.

(** l.309 postfix ++: (returned old value, new value of the object) *)
Definition op_post_inc (n : Z) (a : list Z) : outcome (list Z * list Z) :=
  r <- op_inc n a ;; Ok (a, r).

(** l.315-323 prefix -- *)
Definition op_dec (n : Z) (a : list Z) : outcome (list Z) :=
  x <- forUx 0 n (fun i blocks =>
    b <- aget blocks i ;;
    if b >? 0 then
      blocks' <- aset blocks i (u32 (b - 1)) ;; Ok (Exit blocks')
    else
      blocks' <- aset blocks i blockMax ;; Ok (Next blocks')) a ;;
  match x with Next r => Ok r | Exit r => Ok r end.

(** l.329 postfix -- *)
Definition op_post_dec (n : Z) (a : list Z) : outcome (list Z * list Z) :=
  r <- op_dec n a ;; Ok (a, r).

(** ** Addition, subtraction *)

(** l.363-369 operator+=(Aeu&, Unsigned); [t] is the template argument [Unsigned]. *)
Definition add_assign_u (n : Z) (t : uty) (a : list Z) (addendum : Z) : outcome (list Z) :=
  '(r, _) <- forU 0 n (fun i '(blocks, addendum) =>
    b <- aget blocks i ;;
    let currentSum := u64 (b + u64 addendum) in
    blocks' <- aset blocks i (u32 (currentSum mod blockBase)) ;;
    Ok (blocks', ucast t (currentSum / blockBase))) (a, addendum) ;;
  Ok r.
(** l.341-343 operator+(const Aeu&, Unsigned): copy, then += *)
Definition op_add_u (n : Z) (t : uty) (a : list Z) (addendum : Z) : outcome (list Z) :=
  add_assign_u n t a addendum.

(** l.377-379 operator+=(Aeu&, const Aeu&) *)
Definition add_assign (n : Z) (a b : list Z) : outcome (list Z) :=
  '(r, _) <- addLine n a b ;; Ok r.
(** l.352-354 *)
Definition op_add (n : Z) (a b : list Z) : outcome (list Z) := add_assign n a b.

(** l.401-403 operator-=: [subtraction += -subtrahend] *)
Definition sub_assign (n : Z) (a b : list Z) : outcome (list Z) :=
  nb <- op_neg n b ;; add_assign n a nb.
(** l.391-393 *)
Definition op_sub (n : Z) (a b : list Z) : outcome (list Z) := sub_assign n a b.

(** ** Observers needed by the arithmetic *)

(** l.1048-1052 filledBlocksNumber *)
Definition filledBlocksNumber (n : Z) (a : list Z) : outcome Z :=
  x <- forDx n 0 (fun i (_ : unit) =>
    b <- aget a i ;;
    if negb (b =? 0) then Ok (Exit (i + 1)) else Ok (Next tt)) tt ;;
  match x with Exit r => Ok r | Next _ => Ok 0 end.

(** l.1041 isZero *)
Definition isZero (n : Z) (a : list Z) : outcome bool :=
  f <- filledBlocksNumber n a ;; Ok (f =? 0).

(** l.1027, 1034 *)
Definition isOdd (a : list Z) : outcome bool := b <- aget a 0 ;; Ok (Z.land 1 b =? 1).
(** Aeu.h l.1034 *)
Definition isEven (a : list Z) : outcome bool := b <- aget a 0 ;; Ok (Z.land 1 b =? 0).

(** ** Multiplication *)

(** l.448-454 (= l.486-492): the inner loop; adds [tBlock * digit] into [buffer] at offset [i];
    returns (buffer, carryOut). *)
Definition mul_inner (n i tBlock : Z) (digit : Z -> outcome Z) (smallerLength : Z) (buffer : list Z)
  : outcome (list Z * Z) :=
  forU 0 (Z.min smallerLength (n - i)) (fun j '(buffer, carryOut) =>
    f <- digit j ;;
    let product := u64 (tBlock * f + carryOut) in
    b <- aget buffer (i + j) ;;
    let partial := u64 (b + product mod blockBase) in
    let carryOut' := u64 (product / blockBase + partial / blockBase) in
    buffer' <- aset buffer (i + j) (u32 (partial mod blockBase)) ;;
    Ok (buffer', carryOut')) (buffer, 0).

(** l.444-457 (and 482-495): the schoolbook double loop over [longerLength] blocks [tBlock] and
    [smallerLength] digits [digit j] of the other factor.  [guard]: the extra test
    [smallerLength < blocksNumber] of l.493, absent in l.455. *)
Definition mul_lines (n : Z) (guard : bool) (longer : list Z) (longerLength : Z)
    (digit : Z -> outcome Z) (smallerLength : Z) : outcome (list Z) :=
  forU 0 longerLength (fun i buffer =>
    tBlock <- aget longer i ;;
    '(buffer, carryOut) <- mul_inner n i tBlock digit smallerLength buffer ;;
    if guard && (smallerLength + i <? n) then
      b <- aget buffer (smallerLength + i) ;;
      aset buffer (smallerLength + i) (u32 (b + u32 carryOut))
    else Ok buffer) (zeros n).
(** Note on the inner bound: the source tests [j < smallerLength && j < buffer.size() - i] (l.448, l.486);
    both tests are against loop-invariant bounds, so the loop runs for
    [j] from 0 below [Z.min smallerLength (n - i)].  [i < longerLength <= n], so [buffer.size() - i] does not wrap. *)

(** l.438-469 operator*=(Aeu&, Unsigned) *)
Definition mul_assign_u (n : Z) (t : uty) (a : list Z) (factor : Z) : outcome (list Z) :=
  if is_uint64_t t then
    longerLength <- filledBlocksNumber n a ;;
    let smallerLength := if factor >? blockMax then 2 else 1 in
    mul_lines n true a longerLength
      (fun j => Ok (Z.land (Z.shiftr factor (blockBitLength * j)) (2 ^ 32 - 1))) smallerLength
  else
    '(r, _) <- forU 0 n (fun i '(blocks, carryOut) =>
      b <- aget blocks i ;;
      let product := u64 (u64 (u64 factor * b) + carryOut) in
      blocks' <- aset blocks i (u32 (product mod blockBase)) ;;
      Ok (blocks', product / blockBase)) (a, 0) ;;
    Ok r.
(** l.415-417 *)
Definition op_mul_u (n : Z) (t : uty) (a : list Z) (factor : Z) : outcome (list Z) := mul_assign_u n t a factor.

(** l.478-498 the lambda multiplyLines *)
Definition multiplyLines (n : Z) (longerLine : list Z) (longerLength : Z)
    (smallerLine : list Z) (smallerLength : Z) : outcome (list Z) :=
  mul_lines n (smallerLength <? n) longerLine longerLength (aget smallerLine) smallerLength.

(** l.477-507 operator*=(Aeu&, const Aeu&) *)
Definition mul_assign (n : Z) (a b : list Z) : outcome (list Z) :=
  thisLength <- filledBlocksNumber n a ;;
  valueLength <- filledBlocksNumber n b ;;
  if thisLength >? valueLength then multiplyLines n a thisLength b valueLength
  else multiplyLines n b valueLength a thisLength.
(** l.426-428 *)
Definition op_mul (n : Z) (a b : list Z) : outcome (list Z) := mul_assign n a b.

(** ** Bitwise operators *)

(** l.566-571 operator~ ; [junk]: the uninitialised [result] (l.567). *)
Definition op_not (n : Z) (junk a : list Z) : outcome (list Z) :=
  forU 0 n (fun i result => b <- aget a i ;; aset result i (not32 b)) junk.

(** l.590-594, 613-617, 636-640: the common loop of ^=, &=, |= *)
Definition bitwise_assign (op : Z -> Z -> Z) (n : Z) (a b : list Z) : outcome (list Z) :=
  forU 0 n (fun i left => x <- aget left i ;; y <- aget b i ;; aset left i (op x y)) a.
Definition xor_assign := bitwise_assign Z.lxor.   (* l.590-594 *)
Definition and_assign := bitwise_assign Z.land.   (* l.613-617 *)
Definition or_assign  := bitwise_assign Z.lor.    (* l.636-640 *)
Definition op_xor := xor_assign.                  (* l.580-582: copy, then ^= *)
Definition op_and := and_assign.                  (* l.603-605 *)
Definition op_or  := or_assign.                   (* l.626-628 *)

(** l.662-678 operator<<= *)
Definition shl_assign (n : Z) (value : list Z) (bitShift : Z) : outcome (list Z) :=
  if (bitShift >=? 32 * n) || (bitShift =? 0) then Ok value else
  let quotient := bitShift / blockBitLength in
  let remainder := bitShift mod blockBitLength in
  let r1 := b2z (negb (remainder =? 0)) in                               (* remainder ? 1U : 0U *)
  let stamp := u32 (u64 (Z.shiftl 1 (blockBitLength - remainder)) - 1) in
  let minI := quotient + r1 in
  value <- forD n minI (fun i value =>
    x <- aget value (i - quotient) ;;
    y <- aget value (i - quotient - r1) ;;
    aset value i
      (Z.lor (u32 (Z.shiftl (Z.land x stamp) remainder))
             (Z.shiftr (Z.land y (not32 stamp)) ((blockBitLength - remainder) mod blockBitLength)))) value ;;
  x0 <- aget value 0 ;;
  value <- aset value quotient (u32 (Z.shiftl (Z.land x0 stamp) remainder)) ;;
  forU 0 quotient (fun i value => aset value i 0) value.
(** l.650-652 *)
Definition op_shl (n : Z) (value : list Z) (bitShift : Z) : outcome (list Z) := shl_assign n value bitShift.

(** l.700-714 operator>>= *)
Definition shr_assign (n : Z) (value : list Z) (bitShift : Z) : outcome (list Z) :=
  if (bitShift >=? 32 * n) || (bitShift =? 0) then Ok value else
  let quotient := bitShift / blockBitLength in
  let remainder := bitShift mod blockBitLength in
  let r1 := b2z (negb (remainder =? 0)) in
  let stamp := u32 (Z.shiftl 1 remainder - 1) in
  value <- forU 0 (n - (quotient + r1)) (fun i value =>
    x <- aget value (i + quotient + r1) ;;
    y <- aget value (i + quotient) ;;
    aset value i
      (Z.lor (u32 (Z.shiftl (Z.land x stamp) ((blockBitLength - remainder) mod blockBitLength)))
             (Z.shiftr (Z.land y (not32 stamp)) remainder))) value ;;
  xl <- aget value (n - 1) ;;
  value <- aset value (n - 1 - quotient) (Z.shiftr (Z.land xl (not32 stamp)) remainder) ;;
  forU (n - quotient) n (fun i value => aset value i 0) value.
(** l.688-690 *)
Definition op_shr (n : Z) (value : list Z) (bitShift : Z) : outcome (list Z) := shr_assign n value bitShift.

(** ** Accessors *)

(** l.896-906 *)
Definition setBit (cfg : config) (n : Z) (a : list Z) (index : Z) (bit : bool) : outcome (list Z) :=
  if negb (cfg_unsafe cfg) && (index >=? 32 * n) then Ok a else
  let blockNumber := index / blockBitLength in
  let bitNumber := index mod blockBitLength in
  _ <- assert_ cfg ((blockNumber <? n) && (bitNumber <? blockBitLength)) ;;
  b <- aget a blockNumber ;;
  if bit then aset a blockNumber (Z.lor b (Z.shiftl 1 bitNumber))
  else aset a blockNumber (Z.land b (not32 (Z.shiftl 1 bitNumber))).

(** l.915-922 *)
Definition getBit (cfg : config) (n : Z) (a : list Z) (index : Z) : outcome bool :=
  if negb (cfg_unsafe cfg) && (index >=? 32 * n) then Ok false else
  let blockNumber := index / blockBitLength in
  let bitNumber := index mod blockBitLength in
  _ <- assert_ cfg ((blockNumber <? n) && (bitNumber <? blockBitLength)) ;;
  b <- aget a blockNumber ;;
  Ok (negb (Z.land b (Z.shiftl 1 bitNumber) =? 0)).

(** l.930-937; note the test [index > blocksNumber * sizeof(block)] *)
Definition setByte (cfg : config) (n : Z) (a : list Z) (index byte : Z) : outcome (list Z) :=
  if negb (cfg_unsafe cfg) && (index >? n * blockBytes) then Ok a else
  let blockNumber := index / blockBytes in
  let byteInBlock := index mod blockBytes in
  let shift := byteInBlock * bitsInByte in
  _ <- assert_ cfg ((blockNumber <? n) && (byteInBlock <? blockBytes)) ;;
  b <- aget a blockNumber ;;
  a <- aset a blockNumber (Z.land b (not32 (u32 (Z.shiftl 255 shift)))) ;;
  b <- aget a blockNumber ;;
  aset a blockNumber (Z.lor b (u32 (Z.shiftl byte shift))).

(** l.946-953 *)
Definition getByte (cfg : config) (n : Z) (a : list Z) (index : Z) : outcome Z :=
  if negb (cfg_unsafe cfg) && (index >? n * blockBytes) then Ok 0 else
  let blockNumber := index / blockBytes in
  let byteInBlock := index mod blockBytes in
  let shift := byteInBlock * bitsInByte in
  _ <- assert_ cfg ((blockNumber <? n) && (byteInBlock <? blockBytes)) ;;
  b <- aget a blockNumber ;;
  Ok (u8 (Z.shiftr (Z.land b (u32 (Z.shiftl 255 shift))) shift)).

(** l.961-966 *)
Definition setBlock (cfg : config) (n : Z) (a : list Z) (index block : Z) : outcome (list Z) :=
  if negb (cfg_unsafe cfg) && (index >=? n) then Ok a else aset a index block.

(** l.975-980 *)
Definition getBlock (cfg : config) (n : Z) (a : list Z) (index : Z) : outcome Z :=
  if negb (cfg_unsafe cfg) && (index >=? n) then Ok 0 else aget a index.

(** l.988-990 (= l.1005-1007, 1317-1319, 1398-1400): index of the last non-zero block, 0 if none:
    [for(lastBlock = n - 1; lastBlock > 0 && blocks[lastBlock] == 0; --lastBlock);] *)
Definition lastBlockIndex (n : Z) (a : list Z) : outcome Z :=
  x <- forDx n 1 (fun i (_ : unit) =>
    b <- aget a i ;;
    if b =? 0 then Ok (Next tt) else Ok (Exit i)) tt ;;
  match x with Exit i => Ok i | Next _ => Ok 0 end.

(** The byte [byteN] of block [b] as extracted at l.993 and l.1010. *)
Definition byteOf (b byteN : Z) : Z :=
  Z.shiftr (Z.land b (u32 (Z.shiftl 255 (byteN * bitsInByte)))) (byteN * bitsInByte).

(** l.987-997 *)
Definition byteCount (n : Z) (a : list Z) : outcome Z :=
  lastBlock <- lastBlockIndex n a ;;
  x <- forDx blockBytes 0 (fun byteN (_ : unit) =>
    b <- aget a lastBlock ;;
    if negb (byteOf b byteN =? 0) then Ok (Exit (lastBlock * blockBytes + byteN + 1)) else Ok (Next tt)) tt ;;
  match x with Exit r => Ok r | Next _ => Ok (lastBlock * blockBytes) end.

(** l.1004-1020 *)
Definition bitCount (n : Z) (a : list Z) : outcome Z :=
  lastBlock <- lastBlockIndex n a ;;
  x <- forDx blockBytes 0 (fun byteN (_ : unit) =>
    b <- aget a lastBlock ;;
    let byte := byteOf b byteN in
    if byte =? 0 then Ok (Next tt)
    else
      y <- forDx bitsInByte 0 (fun bitN (_ : unit) =>
        if negb (Z.shiftr (Z.land byte (Z.shiftl 1 bitN)) bitN =? 0)
        then Ok (Exit ((lastBlock * blockBytes + byteN) * bitsInByte + bitN + 1))
        else Ok (Next tt)) tt ;;
      match y with
      | Exit r => Ok (Exit r)
      | Next _ => Ok (Exit (((lastBlock - 1) * blockBytes + byteN) * bitsInByte))
      end) tt ;;
  match x with Exit r => Ok r | Next _ => Ok (lastBlock * blockBytes) end.

(** ** Comparison *)

(** l.805-829 compareTo(const Aeu<otherBitness>&): [n], [m] the block counts of this and other. *)
Definition compareTo (cfg : config) (n m : Z) (a b : list Z) : outcome comparison_t :=
  let lowerBlockBorder := if n <? m then n else m in
  x <- forDx lowerBlockBorder 0 (fun i (_ : unit) =>
    thisBlock <- aget a i ;; otherBlock <- getBlock cfg m b i ;;
    if negb (thisBlock =? otherBlock)
    then Ok (Exit (if thisBlock >? otherBlock then CGreater else CLess))
    else Ok (Next tt)) tt ;;
  match x with
  | Exit c => Ok c
  | Next _ =>
      if negb (32 * m =? n * blockBitLength) then
        y <- (if m >? n then
                forDx m lowerBlockBorder (fun i (_ : unit) =>
                  o <- getBlock cfg m b i ;;
                  if negb (o =? 0) then Ok (Exit CLess) else Ok (Next tt)) tt
              else if n >? m then
                forDx n lowerBlockBorder (fun i (_ : unit) =>
                  t <- aget a i ;;
                  if negb (t =? 0) then Ok (Exit CGreater) else Ok (Next tt)) tt
              else Ok (Next tt)) ;;
        match y with Exit c => Ok c | Next _ => Ok CEqual end
      else Ok CEqual
  end.

(** l.768-781 compareTo(Unsigned), 8-, 16- and 32-bit types *)
Definition compareTo_u32 (n : Z) (a : list Z) (other : Z) : outcome comparison_t :=
  f <- filledBlocksNumber n a ;;
  if f >? 1 then Ok CGreater else
  let cmp := u32 other in
  b0 <- aget a 0 ;;
  if b0 >? cmp then Ok CGreater else if b0 <? cmp then Ok CLess else Ok CEqual.

(** l.790-796 compareTo(uint64_t) *)
Definition compareTo_u64 (n : Z) (a : list Z) (other : Z) : outcome comparison_t :=
  f <- filledBlocksNumber n a ;;
  if f >? 2 then Ok CGreater else
  b1 <- aget a 1 ;; b0 <- aget a 0 ;;
  let base := Z.lor (u64 (Z.shiftl b1 blockBitLength)) b0 in
  if base >? other then Ok CGreater else if base <? other then Ok CLess else Ok CEqual.

(** l.741-743 operator==(const Aeu&, const Aeu<otherBitness>&) *)
Definition op_eq (cfg : config) (n m : Z) (a b : list Z) : outcome bool :=
  c <- compareTo cfg n m a b ;; Ok (cmp_eqb c CEqual).

(** l.727-729 operator==(const Aeu&, Unsigned), sizeof < 8 *)
Definition op_eq_u32 (n : Z) (a : list Z) (other : Z) : outcome bool :=
  f <- filledBlocksNumber n a ;;
  if f <=? 1 then b0 <- aget a 0 ;; Ok (u32 other =? b0) else Ok false.

(** l.730-732 operator==(const Aeu&, uint64_t) *)
Definition op_eq_u64 (n : Z) (a : list Z) (other : Z) : outcome bool :=
  f <- filledBlocksNumber n a ;;
  if f <=? 2 then
    b1 <- aget a 1 ;; b0 <- aget a 0 ;;
    Ok (Z.lor (u64 (Z.shiftl b1 blockBitLength)) b0 =? other)
  else Ok false.

(** std::strong_ordering, and l.850-862 / 870-883 operator<=> (the switch on [compareTo]). *)
Inductive ordering_t := OLess | OEqual | OGreater | OEquivalent.
(** Aeu.h l.851-861, 872-882: the switch *)
Definition to_ordering (c : comparison_t) : ordering_t :=
  match c with CLess => OLess | CGreater => OGreater | CEqual => OEqual | CEquivalent => OEquivalent end.
(** Aeu.h l.850-862 *)
Definition op_spaceship (cfg : config) (n m : Z) (a b : list Z) : outcome ordering_t :=
  c <- compareTo cfg n m a b ;; Ok (to_ordering c).
(** The relational operators the C++20 compiler rewrites to [<=>] ([(a <=> b) < 0] etc.; in pre-C++20 /
    CUDA mode l.838-842 define them by [compareTo], with the same results). *)
Definition op_lt cfg n m a b := o <- op_spaceship cfg n m a b ;; Ok (match o with OLess => true | _ => false end).
(** Aeu.h l.850-862, 841 *)
Definition op_gt cfg n m a b := o <- op_spaceship cfg n m a b ;; Ok (match o with OGreater => true | _ => false end).
(** Aeu.h l.850-862, 840 *)
Definition op_le cfg n m a b := o <- op_spaceship cfg n m a b ;; Ok (match o with OGreater => false | _ => true end).
(** Aeu.h l.850-862, 842 *)
Definition op_ge cfg n m a b := o <- op_spaceship cfg n m a b ;; Ok (match o with OLess => false | _ => true end).
(** Aeu.h l.741-745, rewritten from == by C++20 *)
Definition op_ne cfg n m a b := e <- op_eq cfg n m a b ;; Ok (negb e).
(** l.870-883 operator<=>(const Unsigned&) with a built-in operand: dispatches to the [compareTo] overload
    at l.768 (types narrower than 8 bytes) or l.790 (uint64_t, and by conversion any other 64-bit type). *)
Definition op_spaceship_u32 (n : Z) (a : list Z) (other : Z) : outcome ordering_t :=
  c <- compareTo_u32 n a other ;; Ok (to_ordering c).
(** Aeu.h l.871-883 with l.790 *)
Definition op_spaceship_u64 (n : Z) (a : list Z) (other : Z) : outcome ordering_t :=
  c <- compareTo_u64 n a other ;; Ok (to_ordering c).

(** ** Division and number theory *)

(** l.1087-1105 divide(number, divisor, quotient&, remainder&).  The outputs are overwritten (l.1090)
    before use; distinct objects are assumed here, see AliasModel.v for shared ones.
    Returns (quotient, remainder).  [1u] is converted by the constructor at l.167. *)
Definition divide (cfg : config) (n : Z) (number divisor : list Z) : outcome (list Z * list Z) :=
  ratio <- compareTo cfg n n number divisor ;;
  let quotient := aeu_zero n in
  let remainder := aeu_zero n in
  match ratio with
  | CGreater =>
      f <- filledBlocksNumber n number ;;
      let bitsUsed := f * blockBitLength in
      forD bitsUsed 0 (fun i '(quotient, remainder) =>
        remainder <- shl_assign n remainder 1 ;;
        bit <- getBit cfg n number i ;;
        remainder <- setBit cfg n remainder 0 bit ;;
        ge <- op_ge cfg n n remainder divisor ;;
        if ge then
          remainder <- sub_assign n remainder divisor ;;
          quotient <- setBit cfg n quotient i true ;;
          Ok (quotient, remainder)
        else Ok (quotient, remainder)) (quotient, remainder)
  | CLess => Ok (quotient, number)
  | _ => one <- from_unsigned n (zeros n) 1 ;; Ok (one, remainder)
  end.

(** l.520-522, 531, 543-545, 553-555 *)
Definition op_div cfg n a b := '(q, _) <- divide cfg n a b ;; Ok q.
(** Aeu.h l.543-545 *)
Definition op_mod cfg n a b := '(_, r) <- divide cfg n a b ;; Ok r.
(** Aeu.h l.531 *)
Definition div_assign := op_div.
(** Aeu.h l.553-555 *)
Definition mod_assign := op_mod.

(** l.1162-1180 gcd(first, second) *)
Definition gcd_loop (cfg : config) (n : Z) (fuel : nat) (st : list Z * list Z) : outcome (list Z) :=
  whileF fuel (fun '(gcd, remainder) =>
    z <- op_eq_u32 n remainder 0 ;;
    if z then Ok (Exit gcd)
    else
      let tGcd := gcd in let gcd := remainder in
      '(_, remainder) <- divide cfg n tGcd gcd ;;
      Ok (Next (gcd, remainder))) st.
(** Aeu.h l.1162-1181 *)
Definition gcd (cfg : config) (fuel : nat) (n : Z) (first second : list Z) : outcome (list Z) :=
  ratio <- compareTo cfg n n first second ;;
  st <- (match ratio with
         | CGreater => '(_, r) <- divide cfg n first second ;; Ok (second, r)
         | _ => '(_, r) <- divide cfg n second first ;; Ok (first, r)
         end) ;;
  gcd_loop cfg n fuel st.

(** l.1127-1153 gcd(first, second, bezoutX&, bezoutY&): returns (gcd, bezoutX, bezoutY) *)
Record egcd_st := mk_egcd { eg_gcd : list Z; eg_q : list Z; eg_r : list Z;
                            eg_x : list Z; eg_y : list Z; eg_tx : list Z; eg_ty : list Z }.
(** Aeu.h l.1140-1151, the loop body *)
Definition egcd_body (cfg : config) (n : Z) (s : egcd_st) : outcome (step egcd_st egcd_st) :=
  z <- op_eq_u32 n (eg_r s) 0 ;;
  if z then Ok (Exit s)
  else
    let tGcd := eg_gcd s in let gcd := eg_r s in
    let t := eg_x s in
    p <- op_mul n (eg_q s) (eg_x s) ;; x' <- op_sub n (eg_tx s) p ;; let tx' := t in
    let t := eg_y s in
    p <- op_mul n (eg_q s) (eg_y s) ;; y' <- op_sub n (eg_ty s) p ;; let ty' := t in
    '(q', r') <- divide cfg n tGcd gcd ;;
    Ok (Next (mk_egcd gcd q' r' x' y' tx' ty')).
Definition gcd_ext (cfg : config) (fuel : nat) (n : Z) (first second : list Z)
  : outcome (list Z * list Z * list Z) :=
  ratio <- compareTo cfg n n first second ;;
  '(g, q, r) <- (match ratio with
         | CGreater => '(q, r) <- divide cfg n first second ;; Ok (second, q, r)
         | _ => '(q, r) <- divide cfg n second first ;; Ok (first, q, r)
         end) ;;
  bx <- from_unsigned n (zeros n) 0 ;; by_ <- from_unsigned n (zeros n) 1 ;;   (* l.1139 *)
  tx <- from_unsigned n (zeros n) 1 ;; ty <- from_unsigned n (zeros n) 0 ;;    (* l.1140 *)
  s <- whileF fuel (egcd_body cfg n) (mk_egcd g q r bx by_ tx ty) ;;
  if negb (cmp_eqb ratio CGreater)
  then Ok (eg_gcd s, eg_y s, eg_x s)              (* l.1149-1150 swap *)
  else Ok (eg_gcd s, eg_x s, eg_y s).

(** l.1189 lcm *)
Definition lcm (cfg : config) (fuel : nat) (n : Z) (first second : list Z) : outcome (list Z) :=
  g <- gcd cfg fuel n first second ;;
  q <- op_div cfg n first g ;;
  op_mul n q second.

(** l.1210-1218 (= l.1228-1236): the square-and-multiply loop.  [m]: block count of the exponent. *)
Definition powm_loop (cfg : config) (n m : Z) (power modulo : list Z) (st : list Z * list Z)
  : outcome (list Z * list Z) :=
  f <- filledBlocksNumber m power ;;
  forU 0 (f * blockBitLength) (fun iteration '(output, b) =>
    bit <- getBit cfg m power iteration ;;
    output <- (if bit then p <- op_mul n output b ;; '(_, r) <- divide cfg n p modulo ;; Ok r
               else Ok output) ;;
    p <- op_mul n b b ;;
    '(_, r) <- divide cfg n p modulo ;;
    Ok (output, r)) st.
(** The loop condition is [power.filledBlocksNumber() * 32 != iteration], re-evaluated each time on the
    unchanged [power]; [iteration] counts up from 0, so it runs exactly that many times.  In l.1210 the
    counter is a 32-bit [unsigned]; it cannot wrap for powerBitness < 2^32, which is assumed here
    ([MachModel.v] has the counter as it is, see C148). *)

(** l.1224-1239 powm(base, power, mod), one precision *)
Definition powm (cfg : config) (n : Z) (base power mod_ : list Z) : outcome (list Z) :=
  output <- from_unsigned n (zeros n) 1 ;;
  '(_, b) <- divide cfg n base mod_ ;;
  '(output, _) <- powm_loop cfg n n power mod_ (output, b) ;;
  Ok output.

(** l.1201-1221 powm<powerBitness>(base, power, modulo) *)
Definition powm_x (cfg : config) (n m : Z) (base power modulo : list Z) : outcome (list Z) :=
  is1 <- op_eq_u32 n base 1 ;;
  if is1 then Ok base else
  is0 <- op_eq_u32 n base 0 ;;
  if is0 then from_unsigned n (zeros n) 1 else
  output <- from_unsigned n (zeros n) 1 ;;
  '(_, b) <- divide cfg n base modulo ;;
  '(output, _) <- powm_loop cfg n m power modulo (output, b) ;;
  Ok output.

(** l.1248 power2 *)
Definition power2 (cfg : config) (n : Z) (power : Z) : outcome (list Z) :=
  setBit cfg n (aeu_zero n) power true.

(** l.1256-1265 squareRoot *)
Definition squareRoot (cfg : config) (fuel : nat) (n : Z) (a : list Z) : outcome (list Z) :=
  c <- bitCount n a ;;
  y <- power2 cfg n ((c + 1) / 2) ;;
  whileF fuel (fun y =>
    let x := y in
    q <- op_div cfg n a x ;; s <- op_add n x q ;; y <- op_shr n s 1 ;;
    lt <- op_lt cfg n n y x ;;
    if lt then Ok (Next y) else Ok (Exit x)) y.

(** ** Casts *)

(** l.1475-1478 integralCast<Integral> *)
Definition integralCast (t : ity) (a : list Z) : outcome Z :=
  b1 <- aget a 1 ;; b0 <- aget a 0 ;;
  let value := Z.lor (u64 (Z.shiftl b1 blockBitLength)) b0 in
  Ok (icast t value).

(** l.1489-1497 precisionCast<newBitness>; [m]: block count of the result *)
Definition precisionCast (cfg : config) (n m : Z) (a : list Z) : outcome (list Z) :=
  let blockBoarder := if 32 * m >? 32 * n then n else m in
  forU 0 blockBoarder (fun blockIdx result =>
    b <- getBlock cfg n a blockIdx ;;
    setBlock cfg m result blockIdx b) (zeros m).
