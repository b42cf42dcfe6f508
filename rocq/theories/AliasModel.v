(** * AliasModel: the mutating operations of [Aeu] and [Aesi] on a store of objects.

    The models of AeuModel.v and AesiModel.v pass operands by value.  Here an operand that the source takes
    by reference is a location, every access goes through the store, and two references may denote the same
    object.  Line numbers: /repo/include/AesiMultiprecision/Aeu.h for the names [m_*],
    /repo/include/AesiMultiprecision/Aesi.h for the names [ms_*]. *)
From Verif Require Export AesiModel.
Open Scope Z_scope.

(** The program's variables, and the local objects / temporaries of the library's own functions, which are
    never visible to the caller. *)
(** no code: what a reference parameter of Aeu.h / Aesi.h denotes *)
Inductive loc := Var (i : nat) | Tmp (i : nat).
(** no code: identity of objects *)
Definition loc_eqb (a b : loc) : bool :=
  match a, b with
  | Var i, Var j => Nat.eqb i j
  | Tmp i, Tmp j => Nat.eqb i j
  | _, _ => false
  end.

(** A store of [Aeu<32*n>] objects. *)
(** no code: the store; an object is its blocks, Aeu.h l.103 *)
Definition mem := loc -> list Z.
(** Aeu.h l.158: an object gets new contents *)
Definition mput (m : mem) (x : loc) (v : list Z) : mem := fun l => if loc_eqb l x then v else m l.
(** [x.blocks[i]] as an rvalue, and [x.blocks[i] = v]. *)
(** Aeu.h l.103 *)
Definition mget (m : mem) (x : loc) (i : Z) : outcome Z := aget (m x) i.
(** Aeu.h l.103 *)
Definition mset (m : mem) (x : loc) (i v : Z) : outcome mem :=
  b <- aset (m x) i v ;; Ok (mput m x b).

(** l.113-120 addLine(dst, src), both lines read through their references in every iteration *)
Definition m_addLine (n : Z) (m : mem) (dst src : loc) : outcome (mem * Z) :=
  forU 0 n (fun i '(m, carryOut) =>
    d <- mget m dst i ;; s <- mget m src i ;;
    let sum := u64 (d + s + carryOut) in
    m' <- mset m dst i (u32 (sum mod blockBase)) ;;
    Ok (m', sum / blockBase)) (m, 0).

(** l.158 copy assignment (also the copy constructor l.152) *)
Definition m_copy (m : mem) (dst src : loc) : mem := mput m dst (m src).

(** l.377-379 addition += addendum *)
Definition m_add_assign (n : Z) (m : mem) (a b : loc) : outcome mem :=
  '(m', _) <- m_addLine n m a b ;; Ok m'.

(** l.401-403 subtraction += -subtrahend: the temporary holding [-subtrahend] is [Tmp 0] *)
Definition m_sub_assign (n : Z) (m : mem) (a b : loc) : outcome mem :=
  nb <- op_neg n (m b) ;;
  m_add_assign n (mput m (Tmp 0) nb) a (Tmp 0).

(** l.477-507 multiplication *= factor: both operands are only read until the buffer is assigned (l.502, 504) *)
Definition m_mul_assign (n : Z) (m : mem) (a b : loc) : outcome mem :=
  thisLength <- filledBlocksNumber n (m a) ;;
  valueLength <- filledBlocksNumber n (m b) ;;
  buffer <- (if thisLength >? valueLength then multiplyLines n (m a) thisLength (m b) valueLength
             else multiplyLines n (m b) valueLength (m a) thisLength) ;;
  Ok (mput m a buffer).

(** l.590-594, 613-617, 636-640: [left.blocks[i] op= right.blocks[i]] *)
Definition m_bitwise_assign (op : Z -> Z -> Z) (n : Z) (m : mem) (a b : loc) : outcome mem :=
  forU 0 n (fun i m => x <- mget m a i ;; y <- mget m b i ;; mset m a i (op x y)) m.
(** Aeu.h l.590-594 *)
Definition m_xor_assign := m_bitwise_assign Z.lxor.
(** Aeu.h l.613-617 *)
Definition m_and_assign := m_bitwise_assign Z.land.
(** Aeu.h l.636-640 *)
Definition m_or_assign  := m_bitwise_assign Z.lor.

(** Members and operators with a single object operand: read-modify-write of that object. *)
(** e.g. Aeu.h l.295, 662, 896: the object is *this or the only reference *)
Definition m_update (m : mem) (a : loc) (f : list Z -> outcome (list Z)) : outcome mem :=
  r <- f (m a) ;; Ok (mput m a r).

(** l.1072-1074 swap: [Aeu t = other; other = *this; *this = t;] ([t] is [Tmp 0]) *)
Definition m_swap (m : mem) (this other : loc) : mem :=
  let m := m_copy m (Tmp 0) other in
  let m := m_copy m other this in
  m_copy m this (Tmp 0).

(** l.1087-1105 divide(number, divisor, quotient&, remainder&) *)
Definition m_divide (cfg : config) (n : Z) (m : mem) (number divisor quotient remainder : loc) : outcome mem :=
  ratio <- compareTo cfg n n (m number) (m divisor) ;;                       (* l.1088 *)
  let m := mput m quotient (aeu_zero n) in                                   (* l.1090 *)
  let m := mput m remainder (aeu_zero n) in
  match ratio with
  | CGreater =>
      f <- filledBlocksNumber n (m number) ;;                                (* l.1093 *)
      let bitsUsed := f * blockBitLength in
      forD bitsUsed 0 (fun i m =>
        m <- m_update m remainder (fun r => shl_assign n r 1) ;;             (* l.1095 *)
        bit <- getBit cfg n (m number) i ;;
        m <- m_update m remainder (fun r => setBit cfg n r 0 bit) ;;         (* l.1096 *)
        ge <- op_ge cfg n n (m remainder) (m divisor) ;;                     (* l.1098 *)
        if ge then
          m <- m_sub_assign n m remainder divisor ;;                         (* l.1099 *)
          m_update m quotient (fun q => setBit cfg n q i true)               (* l.1100 *)
        else Ok m) m
  | CLess => Ok (m_copy m remainder number)                                  (* l.1104 *)
  | _ => one <- from_unsigned n (m quotient) 1 ;; Ok (mput m quotient one)   (* l.1104 *)
  end.

(** l.520-522 operator/: the locals [quotient] and [_] are [Tmp 1] and [Tmp 2]; returns the quotient by value.
    Their initial contents (l.521, default-initialised) are whatever the store holds there. *)
Definition m_op_div (cfg : config) (n : Z) (m : mem) (a b : loc) : outcome (list Z) :=
  m' <- m_divide cfg n m a b (Tmp 1) (Tmp 2) ;; Ok (m' (Tmp 1)).
(** l.543-545 operator% *)
Definition m_op_mod (cfg : config) (n : Z) (m : mem) (a b : loc) : outcome (list Z) :=
  m' <- m_divide cfg n m a b (Tmp 1) (Tmp 2) ;; Ok (m' (Tmp 2)).
(** l.531, l.553-555 *)
Definition m_div_assign (cfg : config) (n : Z) (m : mem) (a b : loc) : outcome mem :=
  q <- m_op_div cfg n m a b ;; Ok (mput m a q).
(** Aeu.h l.553-555 *)
Definition m_mod_assign (cfg : config) (n : Z) (m : mem) (a b : loc) : outcome mem :=
  r <- m_op_mod cfg n m a b ;; Ok (mput m a r).

(** l.1127-1153 gcd(first, second, bezoutX&, bezoutY&): returns the gcd and the new store.
    The locals [gcd], [quotient], [remainder], [tX], [tY], [t], [tGcd] cannot be shared and are values;
    [bezoutX], [bezoutY] are references into the store, written from l.1139 on. *)
Record mgcd_st := mk_mgcd { mg_mem : mem; mg_gcd : list Z; mg_q : list Z; mg_r : list Z;
                            mg_tx : list Z; mg_ty : list Z }.
Definition m_egcd_body (cfg : config) (n : Z) (bezoutX bezoutY : loc) (s : mgcd_st)
  : outcome (step mgcd_st mgcd_st) :=
  z <- op_eq_u32 n (mg_r s) 0 ;;
  if z then Ok (Exit s)
  else
    let tGcd := mg_gcd s in let gcd := mg_r s in                                    (* l.1141 *)
    let m := mg_mem s in
    let t := m bezoutX in                                                           (* l.1143 *)
    p <- op_mul n (mg_q s) (m bezoutX) ;; x' <- op_sub n (mg_tx s) p ;;
    let m := mput m bezoutX x' in let tX := t in
    let t := m bezoutY in                                                           (* l.1144 *)
    p <- op_mul n (mg_q s) (m bezoutY) ;; y' <- op_sub n (mg_ty s) p ;;
    let m := mput m bezoutY y' in let tY := t in
    '(q', r') <- divide cfg n tGcd gcd ;;                                           (* l.1146 *)
    Ok (Next (mk_mgcd m gcd q' r' tX tY)).
Definition m_gcd_ext (cfg : config) (fuel : nat) (n : Z) (m : mem) (first second bezoutX bezoutY : loc)
  : outcome (list Z * mem) :=
  ratio <- compareTo cfg n n (m first) (m second) ;;
  '(g, q, r) <- (match ratio with
         | CGreater => '(q, r) <- divide cfg n (m first) (m second) ;; Ok (m second, q, r)
         | _ => '(q, r) <- divide cfg n (m second) (m first) ;; Ok (m first, q, r)
         end) ;;
  bx <- from_unsigned n (zeros n) 0 ;; let m := mput m bezoutX bx in               (* l.1139 *)
  by_ <- from_unsigned n (zeros n) 1 ;; let m := mput m bezoutY by_ in
  tx <- from_unsigned n (zeros n) 1 ;; ty <- from_unsigned n (zeros n) 0 ;;        (* l.1140 *)
  s <- whileF fuel (m_egcd_body cfg n bezoutX bezoutY) (mk_mgcd m g q r tx ty) ;;
  if negb (cmp_eqb ratio CGreater)
  then Ok (mg_gcd s, m_swap (mg_mem s) bezoutX bezoutY)                            (* l.1149-1150 *)
  else Ok (mg_gcd s, mg_mem s).

(** ** Signed objects: a store of [Aesi<32*n>], whose members [sign] and [base] are separately accessed. *)
(** no code: the store; an object is Aesi.h l.69-72 *)
Definition smem := loc -> aesi.
(** Aesi.h l.186 *)
Definition sput (m : smem) (x : loc) (v : aesi) : smem := fun l => if loc_eqb l x then v else m l.
(** assignment to the member [sign] / [base] of [x] *)
(** Aesi.h l.69 *)
Definition sput_sign (m : smem) (x : loc) (s : sign_t) : smem := sput m x (mk_aesi s (mag (m x))).
(** Aesi.h l.72 *)
Definition sput_base (m : smem) (x : loc) (b : list Z) : smem := sput m x (mk_aesi (sgn (m x)) b).
(** The [base] members seen as a store of [Aeu] objects, and that store written back. *)
(** Aesi.h l.72 *)
Definition bases (m : smem) : mem := fun l => mag (m l).
(** Aesi.h l.72 *)
Definition put_bases (m : smem) (b : mem) : smem := fun l => mk_aesi (sgn (m l)) (b l).
(** calls of Aeu functions on members base, e.g. Aesi.h l.275 *)
Definition on_bases (m : smem) (f : mem -> outcome mem) : outcome smem :=
  b <- f (bases m) ;; Ok (put_bases m b).

(** l.927-930 x.inverse() *)
Definition ms_inverse (m : smem) (x : loc) : smem :=
  sput_sign m x (match sgn (m x) with SZero => SZero | SNeg => SPos | SPos => SNeg end).

(** l.186 copy assignment *)
Definition ms_copy (m : smem) (dst src : loc) : smem := sput m dst (m src).

(** [lBase = rBase - lBase; lSign = s;] (l.287-288, 304-305, 357-358, 380-381): operator- (Aeu.h l.391-393)
    copies its left operand to a local ([Tmp 3]) and subtracts the right operand from that copy. *)
Definition ms_rsub (n : Z) (m : smem) (a b : loc) (s : sign_t) : outcome smem :=
  m1 <- on_bases m (fun bs => m_sub_assign n (m_copy bs (Tmp 3) b) (Tmp 3) a) ;;
  let m2 := sput_base m a (mag (m1 (Tmp 3))) in
  Ok (sput_sign m2 a s).

(** l.265-315 addition += addendum *)
Definition ms_add_assign (cfg : config) (n : Z) (m : smem) (a b : loc) : outcome smem :=
  if sign_eqb (sgn (m b)) SZero then Ok m                                            (* l.270-271 *)
  else if sign_eqb (sgn (m a)) SZero then Ok (ms_copy m a b)                         (* l.272-273 *)
  else if sign_eqb (sgn (m a)) (sgn (m b)) then on_bases m (fun bs => m_add_assign n bs a b)  (* l.274-277 *)
  else if sign_eqb (sgn (m a)) SPos then
    ratio <- compareTo cfg n n (mag (m a)) (mag (m b)) ;;                            (* l.280-294 *)
    match ratio with
    | CGreater => on_bases m (fun bs => m_sub_assign n bs a b)
    | CLess => ms_rsub n m a b SNeg
    | _ => Ok (sput_sign m a SZero)
    end
  else
    ratio <- compareTo cfg n n (mag (m a)) (mag (m b)) ;;                            (* l.297-311 *)
    match ratio with
    | CGreater => on_bases m (fun bs => m_sub_assign n bs a b)
    | CLess => ms_rsub n m a b SPos
    | _ => Ok (sput_sign m a SZero)
    end.

(** l.335-393 subtraction -= subtrahend *)
Definition ms_sub_assign (cfg : config) (n : Z) (m : smem) (a b : loc) : outcome smem :=
  if sign_eqb (sgn (m b)) SZero then Ok m                                            (* l.340-341 *)
  else if sign_eqb (sgn (m a)) SZero then Ok (ms_inverse (ms_copy m a b) a)          (* l.342-346 *)
  else if sign_eqb (sgn (m a)) SPos then
    if sign_eqb (sgn (m b)) SPos then
      ratio <- compareTo cfg n n (mag (m a)) (mag (m b)) ;;                          (* l.350-365 *)
      match ratio with
      | CGreater => on_bases m (fun bs => m_sub_assign n bs a b)
      | CLess => ms_rsub n m a b SNeg
      | _ => Ok (sput_sign m a SZero)
      end
    else on_bases m (fun bs => m_add_assign n bs a b)                                (* l.367-370 *)
  else
    if sign_eqb (sgn (m b)) SNeg then
      ratio <- compareTo cfg n n (mag (m a)) (mag (m b)) ;;                          (* l.373-388 *)
      match ratio with
      | CGreater => on_bases m (fun bs => m_sub_assign n bs a b)
      | CLess => ms_rsub n m a b SPos
      | _ => Ok (sput_sign m a SZero)
      end
    else on_bases m (fun bs => m_add_assign n bs a b).                               (* l.389-392 *)

(** l.446-456 multiplication *= factor *)
Definition ms_mul_assign (n : Z) (m : smem) (a b : loc) : outcome smem :=
  if s_isZero (m b) then Ok (sput_sign m a SZero)
  else
    let m := if s_isNegative (m b) then ms_inverse m a else m in
    on_bases m (fun bs => m_mul_assign n bs a b).

(** l.522, 591-592: [if(x.base.isZero()) x.sign = Zero;] *)
Definition ms_fix_zero (n : Z) (m : smem) (a : loc) : outcome smem :=
  z <- isZero n (mag (m a)) ;; Ok (if z then sput_sign m a SZero else m).

(** l.514-525 division /= divisor *)
Definition ms_div_assign (cfg : config) (n : Z) (m : smem) (a b : loc) : outcome smem :=
  if s_isZero (m b) then Ok (sput_sign m a SZero)
  else
    let m := if s_isNegative (m b) then ms_inverse m a else m in
    m <- on_bases m (fun bs => m_div_assign cfg n bs a b) ;;
    ms_fix_zero n m a.

(** l.584-596 modulation %= modulo *)
Definition ms_mod_assign (cfg : config) (n : Z) (m : smem) (a b : loc) : outcome smem :=
  if s_isZero (m b) then Ok m
  else
    let m := if s_isNegative (m b) then ms_inverse m a else m in
    m <- on_bases m (fun bs => m_mod_assign cfg n bs a b) ;;
    ms_fix_zero n m a.

(** Members and operators with a single object operand. *)
(** e.g. Aesi.h l.178, 210, 426 *)
Definition ms_update (m : smem) (a : loc) (f : aesi -> outcome aesi) : outcome smem :=
  r <- f (m a) ;; Ok (sput m a r).

(** l.918-921 swap: the signs through a temporary, then [base.swap(other.base)] *)
Definition ms_swap (m : smem) (this other : loc) : smem :=
  let tSign := sgn (m this) in
  let m := sput_sign m this (sgn (m other)) in
  let m := sput_sign m other tSign in
  put_bases m (m_swap (bases m) this other).

(** l.942-973 divide(number, divisor, quotient&, remainder&) *)
Definition ms_divide (cfg : config) (n : Z) (m : smem) (number divisor quotient remainder : loc) : outcome smem :=
  if sign_eqb (sgn (m number)) SZero || sign_eqb (sgn (m divisor)) SZero then        (* l.944-948 *)
    Ok (sput_sign (sput_sign m quotient SZero) remainder SZero)
  else
    m <- on_bases m (fun bs => m_divide cfg n bs number divisor quotient remainder) ;;   (* l.950 *)
    let m :=
      if sign_eqb (sgn (m number)) SPos then                                         (* l.951-967 *)
        if sign_eqb (sgn (m divisor)) SPos then sput_sign (sput_sign m quotient SPos) remainder SPos
        else sput_sign (sput_sign m quotient SNeg) remainder SPos
      else
        if sign_eqb (sgn (m divisor)) SPos then sput_sign (sput_sign m quotient SNeg) remainder SNeg
        else sput_sign (sput_sign m quotient SPos) remainder SNeg in
    m <- ms_fix_zero n m quotient ;;                                                 (* l.969-970 *)
    ms_fix_zero n m remainder.                                                       (* l.971-972 *)
