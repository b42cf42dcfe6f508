(** * ThrModel: the unsigned class, one block access at a time, and threads that interleave those accesses.

    Functions that take [const Aeu&] operands and return by value get [view]s and keep their local objects as values
    (nobody else can see those).  Functions that assign to an object take its location and store into it.  Statement by
    statement these are the functions of [AeuModel.v] and [AliasModel.v]; [ThrFacts.v] proves that, run alone, they
    compute the same.  Line numbers: Aeu.h. *)
From Verif Require Export ThrMonad ProgModel.
Open Scope Z_scope.

(** ** Functions that only read *)
(** l.152: copy construction of a local object *)
Definition v_copy (n : Z) (a : view) : act (list Z) :=
  aforU 0 n (fun i r => b <~ a i ;; pure (aset r i b)) (zeros n).
(** l.1048-1052 *)
Definition v_filledBlocksNumber (n : Z) (a : view) : act Z :=
  x <~ aforDx n 0 (fun i (_ : unit) =>
    b <~ a i ;;
    if negb (b =? 0) then Ret (Exit (i + 1)) else Ret (Next tt)) tt ;;
  match x with Exit r => Ret r | Next _ => Ret 0 end.
(** l.1041 *)
Definition v_isZero (n : Z) (a : view) : act bool := f <~ v_filledBlocksNumber n a ;; Ret (f =? 0).
(** l.1027 *)
Definition v_isOdd (a : view) : act bool := b <~ a 0 ;; Ret (Z.land 1 b =? 1).
(** l.915-922 *)
Definition v_getBit (cfg : config) (n : Z) (a : view) (index : Z) : act bool :=
  if negb (cfg_unsafe cfg) && (index >=? 32 * n) then Ret false else
  let blockNumber := index / blockBitLength in
  let bitNumber := index mod blockBitLength in
  _ <~ pure (assert_ cfg ((blockNumber <? n) && (bitNumber <? blockBitLength))) ;;
  b <~ a blockNumber ;;
  Ret (negb (Z.land b (Z.shiftl 1 bitNumber) =? 0)).
(** l.975-980 *)
Definition v_getBlock (cfg : config) (n : Z) (a : view) (index : Z) : act Z :=
  if negb (cfg_unsafe cfg) && (index >=? n) then Ret 0 else a index.
(** l.805-829, operands of the same precision: the second part (l.816-826) is not compiled in *)
Definition v_compareTo (cfg : config) (n : Z) (a b : view) : act comparison_t :=
  x <~ aforDx n 0 (fun i (_ : unit) =>
    thisBlock <~ a i ;; otherBlock <~ v_getBlock cfg n b i ;;
    if negb (thisBlock =? otherBlock)
    then Ret (Exit (if thisBlock >? otherBlock then CGreater else CLess))
    else Ret (Next tt)) tt ;;
  match x with Exit c => Ret c | Next _ => Ret CEqual end.
(** l.741-743 *)
Definition v_eq (cfg : config) (n : Z) (a b : view) : act bool := c <~ v_compareTo cfg n a b ;; Ret (cmp_eqb c CEqual).
(** l.850-862 and the relations rewritten to it *)
Definition v_rel (cfg : config) (n : Z) (a b : view) (f : ordering_t -> bool) : act bool :=
  c <~ v_compareTo cfg n a b ;; Ret (f (to_ordering c)).
(** l.850, 839 *)
Definition v_lt cfg n a b := v_rel cfg n a b (fun o => match o with OLess => true | _ => false end).
(** l.850, 841 *)
Definition v_gt cfg n a b := v_rel cfg n a b (fun o => match o with OGreater => true | _ => false end).
(** l.850, 840 *)
Definition v_le cfg n a b := v_rel cfg n a b (fun o => match o with OGreater => false | _ => true end).
(** l.850, 842 *)
Definition v_ge cfg n a b := v_rel cfg n a b (fun o => match o with OLess => false | _ => true end).

(** l.287-289 with l.127-134: a copy, complemented *)
Definition v_neg (n : Z) (a : view) : act (list Z) :=
  r <~ v_copy n a ;; pure (op_neg n r).
(** l.566-571 *)
Definition v_not (n : Z) (a : view) : act (list Z) :=
  aforU 0 n (fun i result => b <~ a i ;; pure (aset result i (not32 b))) (zeros n).
(** l.401-403 on a local object: [r -= b] *)
Definition v_sub_local (n : Z) (r : list Z) (b : view) : act (list Z) :=
  nb <~ v_neg n b ;; pure (add_assign n r nb).

(** l.486-492 *)
Definition v_mul_inner (n i tBlock : Z) (digit : view) (smallerLength : Z) (buffer : list Z) : act (list Z * Z) :=
  aforU 0 (Z.min smallerLength (n - i)) (fun j '(buffer, carryOut) =>
    f <~ digit j ;;
    let product := u64 (tBlock * f + carryOut) in
    b <~ pure (aget buffer (i + j)) ;;
    let partial := u64 (b + product mod blockBase) in
    let carryOut' := u64 (product / blockBase + partial / blockBase) in
    buffer' <~ pure (aset buffer (i + j) (u32 (partial mod blockBase))) ;;
    Ret (buffer', carryOut')) (buffer, 0).
(** l.478-498 *)
Definition v_multiplyLines (n : Z) (longer : view) (longerLength : Z) (smaller : view) (smallerLength : Z) : act (list Z) :=
  aforU 0 longerLength (fun i buffer =>
    tBlock <~ longer i ;;
    '(buffer, carryOut) <~ v_mul_inner n i tBlock smaller smallerLength buffer ;;
    if (smallerLength <? n) && (smallerLength + i <? n) then
      b <~ pure (aget buffer (smallerLength + i)) ;;
      pure (aset buffer (smallerLength + i) (u32 (b + u32 carryOut)))
    else Ret buffer) (zeros n).
(** l.477-507, up to the assignment of the buffer *)
Definition v_mul (n : Z) (a b : view) : act (list Z) :=
  thisLength <~ v_filledBlocksNumber n a ;;
  valueLength <~ v_filledBlocksNumber n b ;;
  if thisLength >? valueLength then v_multiplyLines n a thisLength b valueLength
  else v_multiplyLines n b valueLength a thisLength.

(** l.1087-1105 with outputs that are local objects of the caller *)
Definition v_divide (cfg : config) (n : Z) (number divisor : view) : act (list Z * list Z) :=
  ratio <~ v_compareTo cfg n number divisor ;;
  let quotient := aeu_zero n in
  let remainder := aeu_zero n in
  match ratio with
  | CGreater =>
      f <~ v_filledBlocksNumber n number ;;
      let bitsUsed := f * blockBitLength in
      aforD bitsUsed 0 (fun i '(quotient, remainder) =>
        remainder <~ pure (shl_assign n remainder 1) ;;
        bit <~ v_getBit cfg n number i ;;
        remainder <~ pure (setBit cfg n remainder 0 bit) ;;
        ge <~ v_ge cfg n (local remainder) divisor ;;
        if ge then
          remainder <~ v_sub_local n remainder divisor ;;
          quotient <~ pure (setBit cfg n quotient i true) ;;
          Ret (quotient, remainder)
        else Ret (quotient, remainder)) (quotient, remainder)
  | CLess => r <~ v_copy n number ;; Ret (quotient, r)
  | _ => one <~ pure (from_unsigned n (zeros n) 1) ;; Ret (one, remainder)
  end.
(** l.1162-1181: after the first division (l.1164-1170) only local objects are used *)
Definition v_gcd (cfg : config) (fuel : nat) (n : Z) (first second : view) : act (list Z) :=
  ratio <~ v_compareTo cfg n first second ;;
  st <~ (match ratio with
         | CGreater => g <~ v_copy n second ;; '(_, r) <~ v_divide cfg n first second ;; Ret (g, r)
         | _ => g <~ v_copy n first ;; '(_, r) <~ v_divide cfg n second first ;; Ret (g, r)
         end) ;;
  pure (gcd_loop cfg n fuel st).
(** l.1189 *)
Definition v_lcm (cfg : config) (fuel : nat) (n : Z) (first second : view) : act (list Z) :=
  g <~ v_gcd cfg fuel n first second ;;
  '(q, _) <~ v_divide cfg n first (local g) ;;
  v_mul n (local q) second.
(** l.1224-1239 *)
Definition v_powm (cfg : config) (n : Z) (base power mod_ : view) : act (list Z) :=
  output <~ pure (from_unsigned n (zeros n) 1) ;;
  '(_, b) <~ v_divide cfg n base mod_ ;;
  f <~ v_filledBlocksNumber n power ;;
  '(output, _) <~ aforU 0 (f * blockBitLength) (fun iteration '(output, b) =>
    bit <~ v_getBit cfg n power iteration ;;
    output <~ (if bit : bool then p <~ pure (op_mul n output b) ;; '(_, r) <~ v_divide cfg n (local p) mod_ ;; Ret r
               else Ret output) ;;
    p <~ pure (op_mul n b b) ;;
    '(_, r) <~ v_divide cfg n (local p) mod_ ;;
    Ret (output, r)) (output, b) ;;
  Ret output.
(** l.1005-1007 *)
Definition v_lastBlockIndex (n : Z) (a : view) : act Z :=
  x <~ aforDx n 1 (fun i (_ : unit) =>
    b <~ a i ;;
    if b =? 0 then Ret (Next tt) else Ret (Exit i)) tt ;;
  match x with Exit i => Ret i | Next _ => Ret 0 end.
(** l.1004-1020 *)
Definition v_bitCount (n : Z) (a : view) : act Z :=
  lastBlock <~ v_lastBlockIndex n a ;;
  x <~ aforDx blockBytes 0 (fun byteN (_ : unit) =>
    b <~ a lastBlock ;;
    let byte := byteOf b byteN in
    if byte =? 0 then Ret (Next tt)
    else
      y <~ pure (forDx bitsInByte 0 (fun bitN (_ : unit) =>
        if negb (Z.shiftr (Z.land byte (Z.shiftl 1 bitN)) bitN =? 0)
        then Ok (Exit ((lastBlock * blockBytes + byteN) * bitsInByte + bitN + 1))
        else Ok (Next tt)) tt) ;;
      match y with
      | Exit r => Ret (Exit r)
      | Next _ => Ret (Exit (((lastBlock - 1) * blockBytes + byteN) * bitsInByte))
      end) tt ;;
  match x with Exit r => Ret r | Next _ => Ret (lastBlock * blockBytes) end.
(** l.1256-1265 *)
Definition v_squareRoot (cfg : config) (fuel : nat) (n : Z) (a : view) : act (list Z) :=
  c <~ v_bitCount n a ;;
  y <~ pure (power2 cfg n ((c + 1) / 2)) ;;
  awhileF fuel (fun y =>
    let x := y in
    '(q, _) <~ v_divide cfg n a (local x) ;; s <~ pure (op_add n x q) ;; y <~ pure (op_shr n s 1) ;;
    lt <~ pure (op_lt cfg n n y x) ;;
    if lt then Ret (Next y) else Ret (Exit x)) y.

(** ** Functions that assign to an object *)
(** l.158 copy assignment, block by block; the source is an object or a returned value *)
Definition t_assign (n : Z) (d : loc) (src : view) : act unit :=
  aforU 0 n (fun i (_ : unit) => b <~ src i ;; aput d i b) tt.
(** l.113-120, 377-379 *)
Definition t_add_assign (n : Z) (a : loc) (b : view) : act unit :=
  _ <~ aforU 0 n (fun i carryOut =>
    d <~ at_ a i ;; s <~ b i ;;
    let sum := u64 (d + s + carryOut) in
    _ <~ aput a i (u32 (sum mod blockBase)) ;;
    Ret (sum / blockBase)) 0 ;;
  Ret tt.
(** l.401-403: the negated operand is a temporary *)
Definition t_sub_assign (n : Z) (a : loc) (b : view) : act unit :=
  nb <~ v_neg n b ;; t_add_assign n a (local nb).
(** l.477-507 *)
Definition t_mul_assign (n : Z) (a : loc) (b : view) : act unit :=
  buffer <~ v_mul n (at_ a) b ;; t_assign n a (local buffer).
(** l.520-531 *)
Definition t_div_assign (cfg : config) (n : Z) (a : loc) (b : view) : act unit :=
  '(q, _) <~ v_divide cfg n (at_ a) b ;; t_assign n a (local q).
(** l.543-555 *)
Definition t_mod_assign (cfg : config) (n : Z) (a : loc) (b : view) : act unit :=
  '(_, r) <~ v_divide cfg n (at_ a) b ;; t_assign n a (local r).
(** l.590-594, 613-617, 636-640 *)
Definition t_bitwise_assign (op : Z -> Z -> Z) (n : Z) (a : loc) (b : view) : act unit :=
  aforU 0 n (fun i (_ : unit) => x <~ at_ a i ;; y <~ b i ;; aput a i (op x y)) tt.
(** l.377, 401, 477, 531, 553, 590, 613, 636 *)
Definition t_op_assign (cfg : config) (o : cop) (n : Z) (a : loc) (b : view) : act unit :=
  match o with
  | OAdd => t_add_assign n a b | OSub => t_sub_assign n a b | OMul => t_mul_assign n a b
  | ODiv => t_div_assign cfg n a b | OMod => t_mod_assign cfg n a b
  | OXor => t_bitwise_assign Z.lxor n a b | OAnd => t_bitwise_assign Z.land n a b | OOr => t_bitwise_assign Z.lor n a b
  end.
(** l.352, 391, 426, 580, 603, 626: a local copy of the first operand ([Tmp 5]), [op=] on it, returned (l.520, 543: the
    quotient or remainder, returned); then l.158 *)
Definition t_binary (cfg : config) (o : cop) (n : Z) (d a b : loc) : act unit :=
  match o with
  | ODiv => '(q, _) <~ v_divide cfg n (at_ a) (at_ b) ;; t_assign n d (local q)
  | OMod => '(_, r) <~ v_divide cfg n (at_ a) (at_ b) ;; t_assign n d (local r)
  | _ => _ <~ t_assign n (Tmp 5) (at_ a) ;; _ <~ t_op_assign cfg o n (Tmp 5) (at_ b) ;; t_assign n d (at_ (Tmp 5))
  end.
(** l.295-303 *)
Definition t_inc (n : Z) (a : loc) : act unit :=
  _ <~ aforUx 0 n (fun i (_ : unit) =>
    b <~ at_ a i ;;
    if b <? blockMax then _ <~ aput a i (u32 (b + 1)) ;; Ret (Exit tt)
    else _ <~ aput a i 0 ;; Ret (Next tt)) tt ;;
  Ret tt.
(** l.315-323 *)
Definition t_dec (n : Z) (a : loc) : act unit :=
  _ <~ aforUx 0 n (fun i (_ : unit) =>
    b <~ at_ a i ;;
    if b >? 0 then _ <~ aput a i (u32 (b - 1)) ;; Ret (Exit tt)
    else _ <~ aput a i blockMax ;; Ret (Next tt)) tt ;;
  Ret tt.
(** l.363-369 *)
Definition t_add_assign_u (n : Z) (t : uty) (a : loc) (addendum : Z) : act unit :=
  _ <~ aforU 0 n (fun i addendum =>
    b <~ at_ a i ;;
    let currentSum := u64 (b + u64 addendum) in
    _ <~ aput a i (u32 (currentSum mod blockBase)) ;;
    Ret (ucast t (currentSum / blockBase))) addendum ;;
  Ret tt.
(** l.438-469: the 64-bit case fills a buffer (l.442-457) that is assigned at the end, the others work in place *)
Definition t_mul_assign_u (n : Z) (t : uty) (a : loc) (factor : Z) : act unit :=
  if is_uint64_t t then
    longerLength <~ v_filledBlocksNumber n (at_ a) ;;
    let smallerLength := if factor >? blockMax then 2 else 1 in
    buffer <~ aforU 0 longerLength (fun i buffer =>
      tBlock <~ at_ a i ;;
      '(buffer, carryOut) <~ v_mul_inner n i tBlock
         (fun j => Ret (Z.land (Z.shiftr factor (blockBitLength * j)) (2 ^ 32 - 1))) smallerLength buffer ;;
      if smallerLength + i <? n then
        b <~ pure (aget buffer (smallerLength + i)) ;;
        pure (aset buffer (smallerLength + i) (u32 (b + u32 carryOut)))
      else Ret buffer) (zeros n) ;;
    t_assign n a (local buffer)
  else
    _ <~ aforU 0 n (fun i carryOut =>
      b <~ at_ a i ;;
      let product := u64 (u64 (u64 factor * b) + carryOut) in
      _ <~ aput a i (u32 (product mod blockBase)) ;;
      Ret (product / blockBase)) 0 ;;
    Ret tt.
(** l.662-678 *)
Definition t_shl_assign (n : Z) (value : loc) (bitShift : Z) : act unit :=
  if (bitShift >=? 32 * n) || (bitShift =? 0) then Ret tt else
  let quotient := bitShift / blockBitLength in
  let remainder := bitShift mod blockBitLength in
  let r1 := b2z (negb (remainder =? 0)) in
  let stamp := u32 (u64 (Z.shiftl 1 (blockBitLength - remainder)) - 1) in
  let minI := quotient + r1 in
  _ <~ aforD n minI (fun i (_ : unit) =>
    x <~ at_ value (i - quotient) ;;
    y <~ at_ value (i - quotient - r1) ;;
    aput value i
      (Z.lor (u32 (Z.shiftl (Z.land x stamp) remainder))
             (Z.shiftr (Z.land y (not32 stamp)) ((blockBitLength - remainder) mod blockBitLength)))) tt ;;
  x0 <~ at_ value 0 ;;
  _ <~ aput value quotient (u32 (Z.shiftl (Z.land x0 stamp) remainder)) ;;
  aforU 0 quotient (fun i (_ : unit) => aput value i 0) tt.
(** l.700-714 *)
Definition t_shr_assign (n : Z) (value : loc) (bitShift : Z) : act unit :=
  if (bitShift >=? 32 * n) || (bitShift =? 0) then Ret tt else
  let quotient := bitShift / blockBitLength in
  let remainder := bitShift mod blockBitLength in
  let r1 := b2z (negb (remainder =? 0)) in
  let stamp := u32 (Z.shiftl 1 remainder - 1) in
  _ <~ aforU 0 (n - (quotient + r1)) (fun i (_ : unit) =>
    x <~ at_ value (i + quotient + r1) ;;
    y <~ at_ value (i + quotient) ;;
    aput value i
      (Z.lor (u32 (Z.shiftl (Z.land x stamp) ((blockBitLength - remainder) mod blockBitLength)))
             (Z.shiftr (Z.land y (not32 stamp)) remainder))) tt ;;
  xl <~ at_ value (n - 1) ;;
  _ <~ aput value (n - 1 - quotient) (Z.shiftr (Z.land xl (not32 stamp)) remainder) ;;
  aforU (n - quotient) n (fun i (_ : unit) => aput value i 0) tt.
(** l.896-906 *)
Definition t_setBit (cfg : config) (n : Z) (a : loc) (index : Z) (bit : bool) : act unit :=
  if negb (cfg_unsafe cfg) && (index >=? 32 * n) then Ret tt else
  let blockNumber := index / blockBitLength in
  let bitNumber := index mod blockBitLength in
  _ <~ pure (assert_ cfg ((blockNumber <? n) && (bitNumber <? blockBitLength))) ;;
  b <~ at_ a blockNumber ;;
  if bit then aput a blockNumber (Z.lor b (Z.shiftl 1 bitNumber))
  else aput a blockNumber (Z.land b (not32 (Z.shiftl 1 bitNumber))).
(** l.1072-1074: [t] is [Tmp 0] *)
Definition t_swap (n : Z) (this other : loc) : act unit :=
  _ <~ t_assign n (Tmp 0) (at_ other) ;;
  _ <~ t_assign n other (at_ this) ;;
  t_assign n this (at_ (Tmp 0)).
(** l.1087-1105, outputs that the caller can see *)
Definition t_divide (cfg : config) (n : Z) (number divisor quotient remainder : loc) : act unit :=
  ratio <~ v_compareTo cfg n (at_ number) (at_ divisor) ;;
  _ <~ t_assign n quotient (local (aeu_zero n)) ;;
  _ <~ t_assign n remainder (local (aeu_zero n)) ;;
  match ratio with
  | CGreater =>
      f <~ v_filledBlocksNumber n (at_ number) ;;
      let bitsUsed := f * blockBitLength in
      aforD bitsUsed 0 (fun i (_ : unit) =>
        _ <~ t_shl_assign n remainder 1 ;;
        bit <~ v_getBit cfg n (at_ number) i ;;
        _ <~ t_setBit cfg n remainder 0 bit ;;
        ge <~ v_ge cfg n (at_ remainder) (at_ divisor) ;;
        if ge then
          _ <~ t_sub_assign n remainder (at_ divisor) ;;
          t_setBit cfg n quotient i true
        else Ret tt) tt
  | CLess => t_assign n remainder (at_ number)
  | _ => one <~ pure (from_unsigned n (zeros n) 1) ;; t_assign n quotient (local one)
  end.

(** ** Programs *)
(** no code: the object is assigned what a call returned *)
Definition t_store (n : Z) (d : nat) (call : act (list Z)) : act unit := r <~ call ;; t_assign n (Var d) (local r).
(** one call of the public interface, at the lines given with each case *)
Definition texec (cfg : config) (n : Z) (i : uinstr) : act unit :=
  match i with
  | UCopy d s => t_assign n (Var d) (at_ (Var s))                                         (* l.158 *)
  | ULit d v => t_store n d (pure (from_unsigned n (zeros n) v))                          (* l.167-186, 158 *)
  | UOp o d s => t_op_assign cfg o n (Var d) (at_ (Var s))
  | UBin o d a b => t_binary cfg o n (Var d) (Var a) (Var b)
  | UInc d => t_inc n (Var d)                                                             (* l.295 *)
  | UDec d => t_dec n (Var d)                                                             (* l.315 *)
  | UNeg d s => t_store n d (v_neg n (at_ (Var s)))                                       (* l.287 *)
  | UNot d s => t_store n d (v_not n (at_ (Var s)))                                       (* l.566 *)
  | UShl d k => t_shl_assign n (Var d) k                                                  (* l.662 *)
  | UShr d k => t_shr_assign n (Var d) k                                                  (* l.700 *)
  | USetBit d i b => t_setBit cfg n (Var d) i b                                           (* l.896 *)
  | UAddLit d t v => t_add_assign_u n t (Var d) v                                         (* l.363 *)
  | UMulLit d t v => t_mul_assign_u n t (Var d) v                                         (* l.438 *)
  | USwap a b => t_swap n (Var a) (Var b)                                                 (* l.1072 *)
  | UDivide nu de q r => t_divide cfg n (Var nu) (Var de) (Var q) (Var r)                 (* l.1087 *)
  | UGcd d a b => t_store n d (v_gcd cfg (gfuel n) n (at_ (Var a)) (at_ (Var b)))         (* l.1162 *)
  | ULcm d a b => t_store n d (v_lcm cfg (gfuel n) n (at_ (Var a)) (at_ (Var b)))         (* l.1189 *)
  | USqrt d a => t_store n d (v_squareRoot cfg (gfuel n) n (at_ (Var a)))                 (* l.1256 *)
  | UPow2 d k => t_store n d (pure (power2 cfg n k))                                      (* l.1248 *)
  | UPowm d b p md => t_store n d (v_powm cfg n (at_ (Var b)) (at_ (Var p)) (at_ (Var md)))  (* l.1224 *)
  end.
(** l.741, 850, 1027, 1041, 915 *)
Definition ttest (cfg : config) (n : Z) (c : ucond) : act bool :=
  match c with
  | CEq a b => v_eq cfg n (at_ (Var a)) (at_ (Var b))
  | CNe a b => e <~ v_eq cfg n (at_ (Var a)) (at_ (Var b)) ;; Ret (negb e)
  | CLt a b => v_lt cfg n (at_ (Var a)) (at_ (Var b)) | CLe a b => v_le cfg n (at_ (Var a)) (at_ (Var b))
  | CGt a b => v_gt cfg n (at_ (Var a)) (at_ (Var b)) | CGe a b => v_ge cfg n (at_ (Var a)) (at_ (Var b))
  | COdd a => v_isOdd (at_ (Var a)) | CIsZero a => v_isZero n (at_ (Var a))
  | CBit a i => v_getBit cfg n (at_ (Var a)) i
  end.
(** no code: if, while and sequencing of the calling program *)
Fixpoint trun (cfg : config) (n : Z) (fuel : nat) (s : stmt uinstr ucond) : act unit :=
  match fuel with
  | O => Stop OutOfFuel
  | S f =>
      match s with
      | Skip => Ret tt
      | Do i => texec cfg n i
      | Seq s t => _ <~ trun cfg n f s ;; trun cfg n f t
      | If c s t => b <~ ttest cfg n c ;; trun cfg n f (if b : bool then s else t)
      | While c s => b <~ ttest cfg n c ;; if b : bool then _ <~ trun cfg n f s ;; trun cfg n f (While c s) else Ret tt
      end
  end.

(** ** Threads *)
(** A thread: what it still has to do, and the local objects of the library's functions on its stack ([Tmp]). *)
(** no code *)
Record thread := mk_thread { th_act : act unit; th_tmp : nat -> list Z }.
(** no code: the objects shared by all threads, and the threads *)
Definition world := ((nat -> list Z) * list thread)%type.
(** no code: the store as one thread sees it *)
Definition seen (shared tmp : nat -> list Z) : mem := fun l => match l with Var i => shared i | Tmp i => tmp i end.
(** no code: [x.blocks[i] = v], [x] an object of the program or of the thread *)
Definition put_at (objs : nat -> list Z) (x : nat) (v : list Z) : nat -> list Z := fun i => if Nat.eqb i x then v else objs i.
(** no code: one thread makes its next access; a thread that has finished, or whose behaviour is undefined, does nothing *)
Definition thread_step (shared : nat -> list Z) (th : thread) : (nat -> list Z) * thread :=
  match th_act th with
  | Ret _ | Stop _ => (shared, th)
  | Get x i k =>
      match mget (seen shared (th_tmp th)) x i with
      | Ok v => (shared, mk_thread (k v) (th_tmp th))
      | Err e => (shared, mk_thread (Stop e) (th_tmp th))
      end
  | Put x i v k =>
      match aset (seen shared (th_tmp th) x) i v with
      | Err e => (shared, mk_thread (Stop e) (th_tmp th))
      | Ok b =>
          match x with
          | Var y => (put_at shared y b, mk_thread k (th_tmp th))
          | Tmp y => (shared, mk_thread k (put_at (th_tmp th) y b))
          end
      end
  end.
(** no code *)
Fixpoint replace {A} (l : list A) (k : nat) (x : A) : list A :=
  match l, k with
  | [], _ => []
  | _ :: r, O => x :: r
  | y :: r, S j => y :: replace r j x
  end.
(** no code: the scheduler picks thread [t] *)
Definition world_step (w : world) (t : nat) : world :=
  match nth_error (snd w) t with
  | None => w
  | Some th => let '(sh, th') := thread_step (fst w) th in (sh, replace (snd w) t th')
  end.
(** no code: a schedule *)
Definition world_run (w : world) (schedule : list nat) : world := fold_left world_step schedule w.
(** no code: all threads start; thread [t] runs program [t], with at most [fuel] nested steps *)
Definition start (cfg : config) (n : Z) (fuel : nat) (shared : nat -> list Z)
    (progs : list (stmt uinstr ucond * (nat -> list Z))) : world :=
  (shared, map (fun '(p, tmp) => mk_thread (trun cfg n fuel p) tmp) progs).
