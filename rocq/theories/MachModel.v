(** * MachModel: the unsigned class once more, with machine counters, machine indices and checked shifts.

    AeuModel.v computes [size_t] values with integers and shifts with mathematical shifts.  Here every [size_t]
    computation is reduced modulo 2^64 where the source computes it, every loop is the C++ loop with its own counter
    (which wraps around), and every [<<] and [>>] on built-in values faults when its count is not below the width of
    its (promoted) left operand, which is undefined behaviour in C++.
    All line numbers refer to /repo/include/AesiMultiprecision/Aeu.h; [bitness = 32 * n], [blocksNumber = n].
    [F]: a bound on the iterations of each counted loop, so that loops that do not end can be talked about. *)
From Verif Require Export AeuModel.
Open Scope Z_scope.

(** ** Loops with machine counters *)

(** [for (; cond(i); ++i) body] with a counter of [w] bits *)
Fixpoint w_for {S R} (F : nat) (w : Z) (cond : Z -> outcome bool) (body : Z -> S -> outcome (step S R)) (i : Z) (s : S)
  : outcome (step S R) :=
  match F with
  | O => Err OutOfFuel
  | Datatypes.S f =>
      c <- cond i ;;
      if c then
        x <- body i s ;;
        match x with
        | Next s' => w_for f w cond body ((i + 1) mod 2 ^ w) s'
        | Exit r => Ok (Exit r)
        end
      else Ok (Next s)
  end.
(** [for (; i-- > lo;) body] with a [size_t] counter *)
Fixpoint w_down {S R} (F : nat) (lo : Z) (body : Z -> S -> outcome (step S R)) (i : Z) (s : S) : outcome (step S R) :=
  match F with
  | O => Err OutOfFuel
  | Datatypes.S f =>
      let old := i in
      let i := u64 (i - 1) in
      if old >? lo then
        x <- body i s ;;
        match x with
        | Next s' => w_down f lo body i s'
        | Exit r => Ok (Exit r)
        end
      else Ok (Next s)
  end.
(** a loop body without [break] or [return] *)
Definition w_go {S R} (body : Z -> S -> outcome S) : Z -> S -> outcome (step S R) := fun i s => s' <- body i s ;; Ok (Next s').
(** the state after such a loop *)
Definition w_end {S} (x : step S S) : S := match x with Next s => s | Exit s => s end.
(** [for (size_t i = lo; i < hi; ++i)] *)
Definition w_forU {S} (F : nat) (lo hi : Z) (body : Z -> S -> outcome S) (s : S) : outcome S :=
  x <- w_for (R := S) F 64 (fun i => Ok (i <? hi)) (w_go body) lo s ;; Ok (w_end x).
(** [for (size_t i = hi; i-- > lo;)] *)
Definition w_forD {S} (F : nat) (hi lo : Z) (body : Z -> S -> outcome S) (s : S) : outcome S :=
  x <- w_down (R := S) F lo (w_go body) hi s ;; Ok (w_end x).

(** ** Checked shifts *)
Definition w_count (w k : Z) : outcome unit := if (0 <=? k) && (k <? w) then Ok tt else Err ShiftRange.
Definition w_shl32 (x k : Z) : outcome Z := _ <- w_count 32 k ;; Ok (u32 (Z.shiftl x k)).
Definition w_shr32 (x k : Z) : outcome Z := _ <- w_count 32 k ;; Ok (Z.shiftr x k).
Definition w_shl64 (x k : Z) : outcome Z := _ <- w_count 64 k ;; Ok (u64 (Z.shiftl x k)).
Definition w_shr64 (x k : Z) : outcome Z := _ <- w_count 64 k ;; Ok (Z.shiftr x k).

(** ** Helpers and constructors *)

(** l.113-120 addLine *)
Definition w_addLine (F : nat) (n : Z) (dst src : list Z) : outcome (list Z * Z) :=
  w_forU F 0 n (fun i '(dst, carryOut) =>
    d <- aget dst i ;; s <- aget src i ;;
    let sum := u64 (d + s + carryOut) in
    dst' <- aset dst i (u32 (sum mod blockBase)) ;;
    Ok (dst', sum / blockBase)) (dst, 0).
(** l.127-134 makeComplement *)
Definition w_makeComplement (F : nat) (n : Z) (line : list Z) : outcome (list Z * Z) :=
  w_forU F 0 n (fun i '(line, carryOut) =>
    x <- aget line i ;;
    let sum := u64 (blockBase - 1 - x + carryOut) in
    line' <- aset line i (u32 (sum mod blockBase)) ;;
    Ok (line', sum / blockBase)) (line, 1).
(** l.167-176 Aeu(Integral value) *)
Definition w_from_unsigned (F : nat) (n : Z) (junk : list Z) (value : Z) : outcome (list Z) :=
  if negb (value =? 0) then
    '(b, _) <- w_forU F 0 n (fun i '(blocks, tValue) =>
      blocks' <- aset blocks i (u32 (tValue mod blockBase)) ;;
      Ok (blocks', tValue / blockBase)) (junk, u64 value) ;;
    Ok b
  else Ok (zeros n).
(** l.287-289 operator- *)
Definition w_neg (F : nat) (n : Z) (a : list Z) : outcome (list Z) := '(r, _) <- w_makeComplement F n a ;; Ok r.
(** l.295-303 prefix ++ *)
Definition w_inc (F : nat) (n : Z) (a : list Z) : outcome (list Z) :=
  x <- w_for F 64 (fun i => Ok (i <? n)) (fun i blocks =>
    b <- aget blocks i ;;
    if b <? blockMax then
      blocks' <- aset blocks i (u32 (b + 1)) ;; Ok (Exit blocks')
    else
      blocks' <- aset blocks i 0 ;; Ok (Next blocks')) 0 a ;;
  Ok (w_end x).
(** l.315-323 prefix -- *)
Definition w_dec (F : nat) (n : Z) (a : list Z) : outcome (list Z) :=
  x <- w_for F 64 (fun i => Ok (i <? n)) (fun i blocks =>
    b <- aget blocks i ;;
    if b >? 0 then
      blocks' <- aset blocks i (u32 (b - 1)) ;; Ok (Exit blocks')
    else
      blocks' <- aset blocks i blockMax ;; Ok (Next blocks')) 0 a ;;
  Ok (w_end x).
(** l.363-369 operator+=(Aeu&, Unsigned) *)
Definition w_add_u (F : nat) (n : Z) (t : uty) (a : list Z) (addendum : Z) : outcome (list Z) :=
  '(r, _) <- w_forU F 0 n (fun i '(blocks, addendum) =>
    b <- aget blocks i ;;
    let currentSum := u64 (b + u64 addendum) in
    blocks' <- aset blocks i (u32 (currentSum mod blockBase)) ;;
    Ok (blocks', ucast t (currentSum / blockBase))) (a, addendum) ;;
  Ok r.
(** l.377-379 operator+= *)
Definition w_add (F : nat) (n : Z) (a b : list Z) : outcome (list Z) := '(r, _) <- w_addLine F n a b ;; Ok r.
(** l.401-403 operator-= *)
Definition w_sub (F : nat) (n : Z) (a b : list Z) : outcome (list Z) := nb <- w_neg F n b ;; w_add F n a nb.

(** ** Observers *)

(** l.1048-1052 filledBlocksNumber *)
Definition w_filled (F : nat) (n : Z) (a : list Z) : outcome Z :=
  x <- w_down F 0 (fun i (_ : unit) =>
    b <- aget a i ;;
    if negb (b =? 0) then Ok (Exit (u64 (i + 1))) else Ok (Next tt)) n tt ;;
  match x with Exit r => Ok r | Next _ => Ok 0 end.
(** l.989 (= l.1006): [for(; lastBlock > 0 && blocks[lastBlock] == 0; --lastBlock)] *)
Fixpoint w_last_loop (F : nat) (a : list Z) (lastBlock : Z) : outcome Z :=
  match F with
  | O => Err OutOfFuel
  | Datatypes.S f =>
      if lastBlock >? 0 then
        b <- aget a lastBlock ;;
        if b =? 0 then w_last_loop f a (u64 (lastBlock - 1)) else Ok lastBlock
      else Ok lastBlock
  end.
(** l.988-989 (= l.1005-1006) *)
Definition w_last (F : nat) (n : Z) (a : list Z) : outcome Z := w_last_loop F a (u64 (n - 1)).
(** l.993, l.1010: [(b & (0xffU << (byteN * bitsInByte))) >> (byteN * bitsInByte)] *)
Definition w_byteOf (b byteN : Z) : outcome Z :=
  m <- w_shl32 255 (u64 (byteN * bitsInByte)) ;; w_shr32 (Z.land b m) (u64 (byteN * bitsInByte)).
(** l.987-997 byteCount *)
Definition w_byteCount (F : nat) (n : Z) (a : list Z) : outcome Z :=
  lastBlock <- w_last F n a ;;
  x <- w_down F 0 (fun byteN (_ : unit) =>
    b <- aget a lastBlock ;;
    y <- w_byteOf b byteN ;;
    if negb (y =? 0) then Ok (Exit (u64 (u64 (u64 (lastBlock * blockBytes) + byteN) + 1))) else Ok (Next tt)) blockBytes tt ;;
  match x with Exit r => Ok r | Next _ => Ok (u64 (lastBlock * blockBytes)) end.
(** l.1004-1020 bitCount *)
Definition w_bitCount (F : nat) (n : Z) (a : list Z) : outcome Z :=
  lastBlock <- w_last F n a ;;
  x <- w_down F 0 (fun byteN (_ : unit) =>
    b <- aget a lastBlock ;;
    byte <- w_byteOf b byteN ;;
    if byte =? 0 then Ok (Next tt)
    else
      y <- w_down F 0 (fun bitN (_ : unit) =>
        m <- w_shl32 1 bitN ;; v <- w_shr32 (Z.land byte m) bitN ;;
        if negb (v =? 0)
        then Ok (Exit (u64 (u64 (u64 (u64 (u64 (lastBlock * blockBytes) + byteN) * bitsInByte) + bitN) + 1)))
        else Ok (Next tt)) bitsInByte tt ;;
      match y with
      | Exit r => Ok (Exit r)
      | Next _ => Ok (Exit (u64 (u64 (u64 (u64 (lastBlock - 1) * blockBytes) + byteN) * bitsInByte)))
      end) blockBytes tt ;;
  match x with Exit r => Ok r | Next _ => Ok (u64 (lastBlock * blockBytes)) end.

(** ** Multiplication *)

(** l.448-454 (= l.486-492): the inner loop with its condition as written *)
Definition w_mul_inner (F : nat) (n i tBlock : Z) (digit : Z -> outcome Z) (smallerLength : Z) (buffer : list Z)
  : outcome (list Z * Z) :=
  x <- w_for (R := list Z * Z) F 64 (fun j => Ok ((j <? smallerLength) && (j <? u64 (n - i)))) (w_go (fun j '(buffer, carryOut) =>
    f <- digit j ;;
    let product := u64 (u64 (tBlock * f) + carryOut) in
    b <- aget buffer (u64 (i + j)) ;;
    let partial := u64 (b + product mod blockBase) in
    let carryOut' := u64 (product / blockBase + partial / blockBase) in
    buffer' <- aset buffer (u64 (i + j)) (u32 (partial mod blockBase)) ;;
    Ok (buffer', carryOut'))) 0 (buffer, 0) ;;
  Ok (w_end x).
(** l.444-457 (= l.482-495) *)
Definition w_mul_lines (F : nat) (n : Z) (guard : bool) (longer : list Z) (longerLength : Z)
    (digit : Z -> outcome Z) (smallerLength : Z) : outcome (list Z) :=
  w_forU F 0 longerLength (fun i buffer =>
    tBlock <- aget longer i ;;
    '(buffer, carryOut) <- w_mul_inner F n i tBlock digit smallerLength buffer ;;
    if guard && (u64 (smallerLength + i) <? n) then
      b <- aget buffer (u64 (smallerLength + i)) ;;
      aset buffer (u64 (smallerLength + i)) (u32 (b + u32 carryOut))
    else Ok buffer) (zeros n).
(** l.438-469 operator*=(Aeu&, Unsigned) *)
Definition w_mul_u (F : nat) (n : Z) (t : uty) (a : list Z) (factor : Z) : outcome (list Z) :=
  if is_uint64_t t then
    longerLength <- w_filled F n a ;;
    let smallerLength := if factor >? blockMax then 2 else 1 in
    w_mul_lines F n true a longerLength
      (fun j => x <- w_shr64 factor (u64 (blockBitLength * j)) ;; Ok (Z.land x (2 ^ 32 - 1))) smallerLength
  else
    '(r, _) <- w_forU F 0 n (fun i '(blocks, carryOut) =>
      b <- aget blocks i ;;
      let product := u64 (u64 (u64 factor * b) + carryOut) in
      blocks' <- aset blocks i (u32 (product mod blockBase)) ;;
      Ok (blocks', product / blockBase)) (a, 0) ;;
    Ok r.
(** l.477-507 operator*=(Aeu&, const Aeu&) *)
Definition w_mul (F : nat) (n : Z) (a b : list Z) : outcome (list Z) :=
  thisLength <- w_filled F n a ;;
  valueLength <- w_filled F n b ;;
  if thisLength >? valueLength then w_mul_lines F n (valueLength <? n) a thisLength (aget b) valueLength
  else w_mul_lines F n (thisLength <? n) b valueLength (aget a) thisLength.

(** ** Bitwise operators and shifts *)

(** l.566-571 operator~ *)
Definition w_not (F : nat) (n : Z) (junk a : list Z) : outcome (list Z) :=
  w_forU F 0 n (fun i result => b <- aget a i ;; aset result i (not32 b)) junk.
(** l.590-594, 613-617, 636-640 *)
Definition w_bitwise (op : Z -> Z -> Z) (F : nat) (n : Z) (a b : list Z) : outcome (list Z) :=
  w_forU F 0 n (fun i left => x <- aget left i ;; y <- aget b i ;; aset left i (op x y)) a.
(** l.662-678 operator<<= *)
Definition w_shl (F : nat) (n : Z) (value : list Z) (bitShift : Z) : outcome (list Z) :=
  if (bitShift >=? 32 * n) || (bitShift =? 0) then Ok value else
  let quotient := bitShift / blockBitLength in
  let remainder := bitShift mod blockBitLength in
  let r1 := b2z (negb (remainder =? 0)) in
  p <- w_shl64 1 (u64 (blockBitLength - remainder)) ;;
  let stamp := u32 (u64 (p - 1)) in
  let minI := u64 (quotient + r1) in
  value <- w_forD F n minI (fun i value =>
    x <- aget value (u64 (i - quotient)) ;;
    x' <- w_shl32 (Z.land x stamp) remainder ;;
    y <- aget value (u64 (u64 (i - quotient) - r1)) ;;
    y' <- w_shr32 (Z.land y (not32 stamp)) (u64 (blockBitLength - remainder) mod blockBitLength) ;;
    aset value i (Z.lor x' y')) value ;;
  x0 <- aget value 0 ;;
  x0' <- w_shl32 (Z.land x0 stamp) remainder ;;
  value <- aset value quotient x0' ;;
  w_forU F 0 quotient (fun i value => aset value i 0) value.
(** l.700-714 operator>>= *)
Definition w_shr (F : nat) (n : Z) (value : list Z) (bitShift : Z) : outcome (list Z) :=
  if (bitShift >=? 32 * n) || (bitShift =? 0) then Ok value else
  let quotient := bitShift / blockBitLength in
  let remainder := bitShift mod blockBitLength in
  let r1 := b2z (negb (remainder =? 0)) in
  p <- w_shl64 1 remainder ;;
  let stamp := u32 (u64 (p - 1)) in
  value <- w_forU F 0 (u64 (n - u64 (quotient + r1))) (fun i value =>
    x <- aget value (u64 (u64 (i + quotient) + r1)) ;;
    x' <- w_shl32 (Z.land x stamp) (u64 (blockBitLength - remainder) mod blockBitLength) ;;
    y <- aget value (u64 (i + quotient)) ;;
    y' <- w_shr32 (Z.land y (not32 stamp)) remainder ;;
    aset value i (Z.lor x' y')) value ;;
  xl <- aget value (u64 (n - 1)) ;;
  xl' <- w_shr32 (Z.land xl (not32 stamp)) remainder ;;
  value <- aset value (u64 (u64 (n - 1) - quotient)) xl' ;;
  w_forU F (u64 (n - quotient)) n (fun i value => aset value i 0) value.

(** ** Access *)

(** l.897-906 setBit *)
Definition w_setBit (cfg : config) (n : Z) (a : list Z) (index : Z) (bit : bool) : outcome (list Z) :=
  if negb (cfg_unsafe cfg) && (index >=? 32 * n) then Ok a else
  let blockNumber := index / blockBitLength in
  let bitNumber := index mod blockBitLength in
  _ <- assert_ cfg ((blockNumber <? n) && (bitNumber <? blockBitLength)) ;;
  b <- aget a blockNumber ;;
  m <- w_shl32 1 bitNumber ;;
  if bit then aset a blockNumber (Z.lor b m) else aset a blockNumber (Z.land b (not32 m)).
(** l.915-922 getBit *)
Definition w_getBit (cfg : config) (n : Z) (a : list Z) (index : Z) : outcome bool :=
  if negb (cfg_unsafe cfg) && (index >=? 32 * n) then Ok false else
  let blockNumber := index / blockBitLength in
  let bitNumber := index mod blockBitLength in
  _ <- assert_ cfg ((blockNumber <? n) && (bitNumber <? blockBitLength)) ;;
  b <- aget a blockNumber ;;
  m <- w_shl32 1 bitNumber ;;
  Ok (negb (Z.land b m =? 0)).
(** l.930-937 setByte *)
Definition w_setByte (cfg : config) (n : Z) (a : list Z) (index byte : Z) : outcome (list Z) :=
  if negb (cfg_unsafe cfg) && (index >? u64 (n * blockBytes)) then Ok a else
  let blockNumber := index / blockBytes in
  let byteInBlock := index mod blockBytes in
  let shift := u64 (byteInBlock * bitsInByte) in
  _ <- assert_ cfg ((blockNumber <? n) && (byteInBlock <? blockBytes)) ;;
  b <- aget a blockNumber ;;
  m <- w_shl32 255 shift ;;
  a <- aset a blockNumber (Z.land b (not32 m)) ;;
  b <- aget a blockNumber ;;
  v <- w_shl32 byte shift ;;
  aset a blockNumber (Z.lor b v).
(** l.946-953 getByte *)
Definition w_getByte (cfg : config) (n : Z) (a : list Z) (index : Z) : outcome Z :=
  if negb (cfg_unsafe cfg) && (index >? u64 (n * blockBytes)) then Ok 0 else
  let blockNumber := index / blockBytes in
  let byteInBlock := index mod blockBytes in
  let shift := u64 (byteInBlock * bitsInByte) in
  _ <- assert_ cfg ((blockNumber <? n) && (byteInBlock <? blockBytes)) ;;
  b <- aget a blockNumber ;;
  m <- w_shl32 255 shift ;;
  v <- w_shr32 (Z.land b m) shift ;;
  Ok (u8 v).

(** ** Comparison *)

(** l.805-829 compareTo(const Aeu<otherBitness>&) *)
Definition w_compareTo (cfg : config) (F : nat) (n m : Z) (a b : list Z) : outcome comparison_t :=
  let lowerBlockBorder := if n <? m then n else m in
  x <- w_down F 0 (fun i (_ : unit) =>
    thisBlock <- aget a i ;; otherBlock <- getBlock cfg m b i ;;
    if negb (thisBlock =? otherBlock)
    then Ok (Exit (if thisBlock >? otherBlock then CGreater else CLess))
    else Ok (Next tt)) lowerBlockBorder tt ;;
  match x with
  | Exit c => Ok c
  | Next _ =>
      if negb (32 * m =? u64 (n * blockBitLength)) then
        y <- (if m >? n then
                w_down F lowerBlockBorder (fun i (_ : unit) =>
                  o <- getBlock cfg m b i ;;
                  if negb (o =? 0) then Ok (Exit CLess) else Ok (Next tt)) m tt
              else if n >? m then
                w_down F lowerBlockBorder (fun i (_ : unit) =>
                  t <- aget a i ;;
                  if negb (t =? 0) then Ok (Exit CGreater) else Ok (Next tt)) n tt
              else Ok (Next tt)) ;;
        match y with Exit c => Ok c | Next _ => Ok CEqual end
      else Ok CEqual
  end.
(** l.768-781 compareTo(Unsigned) *)
Definition w_compareTo_u32 (F : nat) (n : Z) (a : list Z) (other : Z) : outcome comparison_t :=
  f <- w_filled F n a ;;
  if f >? 1 then Ok CGreater else
  let cmp := u32 other in
  b0 <- aget a 0 ;;
  if b0 >? cmp then Ok CGreater else if b0 <? cmp then Ok CLess else Ok CEqual.
(** l.790-796 compareTo(uint64_t) *)
Definition w_compareTo_u64 (F : nat) (n : Z) (a : list Z) (other : Z) : outcome comparison_t :=
  f <- w_filled F n a ;;
  if f >? 2 then Ok CGreater else
  b1 <- aget a 1 ;; h <- w_shl64 b1 blockBitLength ;; b0 <- aget a 0 ;;
  let base := Z.lor h b0 in
  if base >? other then Ok CGreater else if base <? other then Ok CLess else Ok CEqual.
(** l.727-729 operator==(const Aeu&, Unsigned) *)
Definition w_eq_u32 (F : nat) (n : Z) (a : list Z) (other : Z) : outcome bool :=
  f <- w_filled F n a ;;
  if f <=? 1 then b0 <- aget a 0 ;; Ok (u32 other =? b0) else Ok false.
(** l.730-732 operator==(const Aeu&, uint64_t) *)
Definition w_eq_u64 (F : nat) (n : Z) (a : list Z) (other : Z) : outcome bool :=
  f <- w_filled F n a ;;
  if f <=? 2 then
    b1 <- aget a 1 ;; h <- w_shl64 b1 blockBitLength ;; b0 <- aget a 0 ;;
    Ok (Z.lor h b0 =? other)
  else Ok false.
(** l.850-862 operator<=>, with [>=] and [<] rewritten to it *)
Definition w_ge (cfg : config) (F : nat) n m a b := c <- w_compareTo cfg F n m a b ;; Ok (match to_ordering c with OLess => false | _ => true end).
(** l.850-862 *)
Definition w_lt (cfg : config) (F : nat) n m a b := c <- w_compareTo cfg F n m a b ;; Ok (match to_ordering c with OLess => true | _ => false end).

(** ** Division and number theory *)

(** l.1087-1105 divide *)
Definition w_divide (cfg : config) (F : nat) (n : Z) (number divisor : list Z) : outcome (list Z * list Z) :=
  ratio <- w_compareTo cfg F n n number divisor ;;
  let quotient := aeu_zero n in
  let remainder := aeu_zero n in
  match ratio with
  | CGreater =>
      f <- w_filled F n number ;;
      let bitsUsed := u64 (f * blockBitLength) in
      w_forD F bitsUsed 0 (fun i '(quotient, remainder) =>
        remainder <- w_shl F n remainder 1 ;;
        bit <- w_getBit cfg n number i ;;
        remainder <- w_setBit cfg n remainder 0 bit ;;
        ge <- w_ge cfg F n n remainder divisor ;;
        if ge then
          remainder <- w_sub F n remainder divisor ;;
          quotient <- w_setBit cfg n quotient i true ;;
          Ok (quotient, remainder)
        else Ok (quotient, remainder)) (quotient, remainder)
  | CLess => Ok (quotient, number)
  | _ => one <- w_from_unsigned F n (zeros n) 1 ;; Ok (one, remainder)
  end.
(** l.520-522, 531, 543-545, 553-555 *)
Definition w_div cfg F n a b := '(q, _) <- w_divide cfg F n a b ;; Ok q.
(** l.543-545 *)
Definition w_mod cfg F n a b := '(_, r) <- w_divide cfg F n a b ;; Ok r.
(** l.1162-1180 gcd; [fuel] bounds the iterations of the [while] loop at l.1174 *)
Definition w_gcd (cfg : config) (F fuel : nat) (n : Z) (first second : list Z) : outcome (list Z) :=
  ratio <- w_compareTo cfg F n n first second ;;
  st <- (match ratio with
         | CGreater => '(_, r) <- w_divide cfg F n first second ;; Ok (second, r)
         | _ => '(_, r) <- w_divide cfg F n second first ;; Ok (first, r)
         end) ;;
  whileF fuel (fun '(gcd, remainder) =>
    z <- w_eq_u32 F n remainder 0 ;;
    if z then Ok (Exit gcd)
    else
      let tGcd := gcd in let gcd := remainder in
      '(_, remainder) <- w_divide cfg F n tGcd gcd ;;
      Ok (Next (gcd, remainder))) st.
(** l.1189 lcm *)
Definition w_lcm (cfg : config) (F fuel : nat) (n : Z) (first second : list Z) : outcome (list Z) :=
  g <- w_gcd cfg F fuel n first second ;;
  q <- w_div cfg F n first g ;;
  w_mul F n q second.
(** l.1140-1151, the loop body of the extended gcd *)
Definition w_egcd_body (cfg : config) (F : nat) (n : Z) (s : egcd_st) : outcome (step egcd_st egcd_st) :=
  z <- w_eq_u32 F n (eg_r s) 0 ;;
  if z then Ok (Exit s)
  else
    let tGcd := eg_gcd s in let gcd := eg_r s in
    let t := eg_x s in
    p <- w_mul F n (eg_q s) (eg_x s) ;; x' <- w_sub F n (eg_tx s) p ;; let tx' := t in
    let t := eg_y s in
    p <- w_mul F n (eg_q s) (eg_y s) ;; y' <- w_sub F n (eg_ty s) p ;; let ty' := t in
    '(q', r') <- w_divide cfg F n tGcd gcd ;;
    Ok (Next (mk_egcd gcd q' r' x' y' tx' ty')).
(** l.1127-1153 gcd(first, second, bezoutX, bezoutY) *)
Definition w_gcd_ext (cfg : config) (F fuel : nat) (n : Z) (first second : list Z) : outcome (list Z * list Z * list Z) :=
  ratio <- w_compareTo cfg F n n first second ;;
  '(g, q, r) <- (match ratio with
         | CGreater => '(q, r) <- w_divide cfg F n first second ;; Ok (second, q, r)
         | _ => '(q, r) <- w_divide cfg F n second first ;; Ok (first, q, r)
         end) ;;
  bx <- w_from_unsigned F n (zeros n) 0 ;; by_ <- w_from_unsigned F n (zeros n) 1 ;;
  tx <- w_from_unsigned F n (zeros n) 1 ;; ty <- w_from_unsigned F n (zeros n) 0 ;;
  s <- whileF fuel (w_egcd_body cfg F n) (mk_egcd g q r bx by_ tx ty) ;;
  if negb (cmp_eqb ratio CGreater)
  then Ok (eg_gcd s, eg_y s, eg_x s)
  else Ok (eg_gcd s, eg_x s, eg_y s).
(** l.1210-1218 (= l.1228-1236): the loop of powm with a counter of [w] bits; the condition
    [power.filledBlocksNumber() * blockBitLength != iteration] is evaluated every time *)
Definition w_powm_loop (cfg : config) (F : nat) (w n m : Z) (power modulo : list Z) (st : list Z * list Z)
  : outcome (list Z * list Z) :=
  x <- w_for (R := list Z * list Z) F w
    (fun iteration => f <- w_filled F m power ;; Ok (negb (u64 (f * blockBitLength) =? iteration)))
    (w_go (fun iteration '(output, b) =>
      bit <- w_getBit cfg m power iteration ;;
      output <- (if bit then p <- w_mul F n output b ;; '(_, r) <- w_divide cfg F n p modulo ;; Ok r
                 else Ok output) ;;
      p <- w_mul F n b b ;;
      '(_, r) <- w_divide cfg F n p modulo ;;
      Ok (output, r))) 0 st ;;
  Ok (w_end x).
(** l.1224-1239 powm, one precision: the counter is a [std::size_t] (l.1228) *)
Definition w_powm (cfg : config) (F : nat) (n : Z) (base power mod_ : list Z) : outcome (list Z) :=
  output <- w_from_unsigned F n (zeros n) 1 ;;
  '(_, b) <- w_divide cfg F n base mod_ ;;
  '(output, _) <- w_powm_loop cfg F 64 n n power mod_ (output, b) ;;
  Ok output.
(** l.1201-1221 powm<powerBitness>: the counter is an [unsigned] (l.1210) *)
Definition w_powm_x (cfg : config) (F : nat) (n m : Z) (base power modulo : list Z) : outcome (list Z) :=
  is1 <- w_eq_u32 F n base 1 ;;
  if is1 then Ok base else
  is0 <- w_eq_u32 F n base 0 ;;
  if is0 then w_from_unsigned F n (zeros n) 1 else
  output <- w_from_unsigned F n (zeros n) 1 ;;
  '(_, b) <- w_divide cfg F n base modulo ;;
  '(output, _) <- w_powm_loop cfg F 32 n m power modulo (output, b) ;;
  Ok output.
(** l.1248 power2 *)
Definition w_power2 (cfg : config) (n : Z) (power : Z) : outcome (list Z) := w_setBit cfg n (aeu_zero n) power true.
(** l.1256-1265 squareRoot *)
Definition w_squareRoot (cfg : config) (F fuel : nat) (n : Z) (a : list Z) : outcome (list Z) :=
  c <- w_bitCount F n a ;;
  y <- w_power2 cfg n (u64 (c + 1) / 2) ;;
  whileF fuel (fun y =>
    let x := y in
    q <- w_div cfg F n a x ;; s <- w_add F n x q ;; y <- w_shr F n s 1 ;;
    lt <- w_lt cfg F n n y x ;;
    if lt then Ok (Next y) else Ok (Exit x)) y.

(** ** Casts *)

(** l.1475-1478 integralCast *)
Definition w_integralCast (t : ity) (a : list Z) : outcome Z :=
  b1 <- aget a 1 ;; h <- w_shl64 b1 blockBitLength ;; b0 <- aget a 0 ;;
  Ok (icast t (Z.lor h b0)).
(** l.1489-1497 precisionCast; the comparison is of the bitnesses, the counts are [size_t] *)
Definition w_precisionCast (cfg : config) (F : nat) (n m : Z) (a : list Z) : outcome (list Z) :=
  let blockBoarder := if 32 * m >? 32 * n then n else m in
  w_forU F 0 blockBoarder (fun blockIdx result =>
    b <- getBlock cfg n a blockIdx ;;
    setBlock cfg m result blockIdx b) (zeros m).
