(** * SThrModel: the signed class, one access to a sign or a block at a time.

    As [ThrModel.v], for [Aesi].  A signed object consists of a sign and a magnitude; they are kept in two cells of the
    store of [ThrMonad.v], the magnitude of object [x] in cell [2 x], the sign in block 0 of cell [2 x + 1] (whose other
    blocks are never accessed).  Reading a sign, or storing one, is one access.  Every mention of a sign in the source is
    an access of its own.  Line numbers: Aesi.h. *)
From Verif Require Export ThrModel.
Open Scope Z_scope.

(** l.39: the values of the enumeration, as blocks *)
Definition code (s : sign_t) : Z := match s with SZero => 0 | SPos => 1 | SNeg => 2 ^ 32 - 1 end.
(** l.39: [Negative = -1]; other patterns are never stored *)
Definition decode (c : Z) : sign_t := if c =? 1 then SPos else if c =? 2 ^ 32 - 1 then SNeg else SZero.
(** l.72 the member [base] *)
Definition mag_at (x : loc) : loc := match x with Var i => Var (2 * i) | Tmp i => Tmp (2 * i) end.
(** l.69 the member [sign] *)
Definition sign_at (x : loc) : loc := match x with Var i => Var (2 * i + 1) | Tmp i => Tmp (2 * i + 1) end.
(** no code: the magnitude as a [const] operand *)
Definition base_ (x : loc) : view := at_ (mag_at x).
(** l.69: a use of [x.sign] *)
Definition v_sign (x : loc) : act sign_t := c <~ at_ (sign_at x) 0 ;; Ret (decode c).
(** l.69: [x.sign = s] *)
Definition t_sign (x : loc) (s : sign_t) : act unit := aput (sign_at x) 0 (code s).

(** ** Functions that only read *)
(** l.695-724 *)
Definition v_scompareTo (cfg : config) (n : Z) (a b : loc) : act comparison_t :=
  bs <~ v_sign b ;;
  if sign_eqb bs SZero then s <~ v_sign a ;; Ret (s_cmp_zero s)                          (* l.697-704 *)
  else
    bs <~ v_sign b ;;
    if sign_eqb bs SNeg then                                                             (* l.705-716 *)
      s <~ v_sign a ;;
      if sign_eqb s SNeg then c <~ v_compareTo cfg n (base_ a) (base_ b) ;; Ret (s_cmp_flip c) else Ret CGreater
    else                                                                                 (* l.717-723 *)
      s <~ v_sign a ;;
      if sign_eqb s SPos then v_compareTo cfg n (base_ a) (base_ b) else Ret CLess.
(** l.619-622 *)
Definition v_seq (cfg : config) (n : Z) (a b : loc) : act bool := c <~ v_scompareTo cfg n a b ;; Ret (cmp_eqb c CEqual).
(** l.754-766 and the relations rewritten to it *)
Definition v_srel (cfg : config) (n : Z) (a b : loc) (f : ordering_t -> bool) : act bool :=
  c <~ v_scompareTo cfg n a b ;; Ret (f (to_ordering c)).

(** ** Functions that assign to an object *)
(** l.186: the sign, then the magnitude *)
Definition t_scopy (n : Z) (d s : loc) : act unit :=
  x <~ v_sign s ;; _ <~ t_sign d x ;; t_assign n (mag_at d) (base_ s).
(** l.186 with a returned value as source *)
Definition t_sput (n : Z) (d : loc) (r : aesi) : act unit :=
  _ <~ t_sign d (sgn r) ;; t_assign n (mag_at d) (local (mag r)).
(** l.927-930: [sign] is read for each comparison *)
Definition t_inverse (x : loc) : act unit :=
  s <~ v_sign x ;;
  if sign_eqb s SZero then t_sign x SZero
  else s <~ v_sign x ;; t_sign x (if sign_eqb s SNeg then SPos else SNeg).
(** l.502, 522, 591-592: [if(x.base.isZero()) x.sign = Zero;] *)
Definition t_fix_zero (n : Z) (a : loc) : act unit :=
  z <~ v_isZero n (base_ a) ;; if z : bool then t_sign a SZero else Ret tt.
(** l.287-288, 304-305, 357-358, 380-381: [lBase = rBase - lBase; lSign = s;], the difference (Aeu.h l.391-393) in a
    local copy *)
Definition t_rsub (n : Z) (a b : loc) (s : sign_t) : act unit :=
  r <~ v_copy n (base_ b) ;; r <~ v_sub_local n r (base_ a) ;;
  _ <~ t_assign n (mag_at a) (local r) ;; t_sign a s.
(** l.280-294, 297-311, 350-365, 373-388: the difference of the magnitudes; [s]: the sign if the right one is greater *)
Definition t_difference (cfg : config) (n : Z) (a b : loc) (s : sign_t) : act unit :=
  ratio <~ v_compareTo cfg n (base_ a) (base_ b) ;;
  match ratio with
  | CGreater => t_sub_assign n (mag_at a) (base_ b)
  | CLess => t_rsub n a b s
  | _ => t_sign a SZero
  end.
(** l.265-315 *)
Definition t_sadd_assign (cfg : config) (n : Z) (a b : loc) : act unit :=
  rs <~ v_sign b ;;
  if sign_eqb rs SZero then Ret tt                                                       (* l.270-271 *)
  else
    ls <~ v_sign a ;;
    if sign_eqb ls SZero then t_scopy n a b                                              (* l.272-273 *)
    else
      ls <~ v_sign a ;; rs <~ v_sign b ;;
      if sign_eqb ls rs then t_add_assign n (mag_at a) (base_ b)                         (* l.274-277 *)
      else
        ls <~ v_sign a ;;
        if sign_eqb ls SPos then t_difference cfg n a b SNeg                             (* l.279-294 *)
        else t_difference cfg n a b SPos.                                                (* l.296-311 *)
(** l.335-393 *)
Definition t_ssub_assign (cfg : config) (n : Z) (a b : loc) : act unit :=
  rs <~ v_sign b ;;
  if sign_eqb rs SZero then Ret tt                                                       (* l.340-341 *)
  else
    ls <~ v_sign a ;;
    if sign_eqb ls SZero then _ <~ t_scopy n a b ;; t_inverse a                          (* l.342-346 *)
    else
      ls <~ v_sign a ;;
      if sign_eqb ls SPos then
        rs <~ v_sign b ;;
        if sign_eqb rs SPos then t_difference cfg n a b SNeg                             (* l.349-365 *)
        else t_add_assign n (mag_at a) (base_ b)                                         (* l.367-370 *)
      else
        rs <~ v_sign b ;;
        if sign_eqb rs SNeg then t_difference cfg n a b SPos                             (* l.372-388 *)
        else t_add_assign n (mag_at a) (base_ b).                                        (* l.389-392 *)
(** l.451-452, 519-520, 588-589: [if(b.isNegative()) a.inverse();] *)
Definition t_flip (a b : loc) : act unit :=
  rs <~ v_sign b ;; if sign_eqb rs SNeg then t_inverse a else Ret tt.
(** l.446-456 *)
Definition t_smul_assign (n : Z) (a b : loc) : act unit :=
  rs <~ v_sign b ;;
  if sign_eqb rs SZero then t_sign a SZero
  else _ <~ t_flip a b ;; t_mul_assign n (mag_at a) (base_ b).
(** l.514-525 *)
Definition t_sdiv_assign (cfg : config) (n : Z) (a b : loc) : act unit :=
  rs <~ v_sign b ;;
  if sign_eqb rs SZero then t_sign a SZero
  else _ <~ t_flip a b ;; _ <~ t_div_assign cfg n (mag_at a) (base_ b) ;; t_fix_zero n a.
(** l.584-596 *)
Definition t_smod_assign (cfg : config) (n : Z) (a b : loc) : act unit :=
  rs <~ v_sign b ;;
  if sign_eqb rs SZero then Ret tt
  else _ <~ t_flip a b ;; _ <~ t_mod_assign cfg n (mag_at a) (base_ b) ;; t_fix_zero n a.
(** l.265, 335, 446, 514, 584 *)
Definition t_sop_assign (cfg : config) (o : scop) (n : Z) (a b : loc) : act unit :=
  match o with
  | SOAdd => t_sadd_assign cfg n a b | SOSub => t_ssub_assign cfg n a b | SOMul => t_smul_assign n a b
  | SODiv => t_sdiv_assign cfg n a b | SOMod => t_smod_assign cfg n a b
  end.
(** l.255, 325, 415, 480, 550: a local copy ([Tmp 5]), [op=] on it, returned; then l.186 *)
Definition t_sbinary (cfg : config) (o : scop) (n : Z) (d a b : loc) : act unit :=
  _ <~ t_scopy n (Tmp 5) a ;; _ <~ t_sop_assign cfg o n (Tmp 5) b ;; t_scopy n d (Tmp 5).
(** l.216, 236: [base = 1u; sign = s;] *)
Definition t_one (n : Z) (a : loc) (s : sign_t) : act unit :=
  one <~ pure (from_unsigned n (zeros n) 1) ;; _ <~ t_assign n (mag_at a) (local one) ;; t_sign a s.
(** l.210-218 *)
Definition t_sinc (n : Z) (a : loc) : act unit :=
  s <~ v_sign a ;;
  if sign_eqb s SNeg then _ <~ t_dec n (mag_at a) ;; t_fix_zero n a
  else
    s <~ v_sign a ;;
    if sign_eqb s SPos then t_inc n (mag_at a) else t_one n a SPos.
(** l.230-238 *)
Definition t_sdec (n : Z) (a : loc) : act unit :=
  s <~ v_sign a ;;
  if sign_eqb s SNeg then t_inc n (mag_at a)
  else
    s <~ v_sign a ;;
    if sign_eqb s SPos then _ <~ t_dec n (mag_at a) ;; t_fix_zero n a else t_one n a SNeg.
(** l.431-434, 497-500: [if(k < 0) { x.inverse(); k = static_cast<Integral>(-k); }] *)
Definition t_strip (t : ity) (a : loc) (k : Z) : act Z :=
  if k <? 0 then _ <~ t_inverse a ;; nk <~ pure (ineg t k) ;; Ret (icast t nk) else Ret k.
(** l.426-439 *)
Definition t_smul_int (cfg : config) (n : Z) (t : ity) (a : loc) (factor : Z) : act unit :=
  if factor =? 0 then t_sign a SZero
  else factor <~ t_strip t a factor ;; t_mul_assign_u n (ull_ty cfg) (mag_at a) (u64 factor).
(** l.492-506: the divisor is converted by the constructor Aeu.h:167 *)
Definition t_sdiv_int (cfg : config) (n : Z) (t : ity) (a : loc) (divisor : Z) : act unit :=
  if divisor =? 0 then t_sign a SZero
  else
    divisor <~ t_strip t a divisor ;;
    d <~ pure (from_unsigned n (zeros n) (u64 divisor)) ;;
    _ <~ t_div_assign cfg n (mag_at a) (local d) ;; t_fix_zero n a.
(** l.918-921 *)
Definition t_sswap (n : Z) (this other : loc) : act unit :=
  tSign <~ v_sign this ;; s <~ v_sign other ;; _ <~ t_sign this s ;; _ <~ t_sign other tSign ;;
  t_swap n (mag_at this) (mag_at other).
(** l.942-973 *)
Definition t_sdivide (cfg : config) (n : Z) (number divisor quotient remainder : loc) : act unit :=
  ns <~ v_sign number ;;
  zero <~ (if sign_eqb ns SZero then Ret true else ds <~ v_sign divisor ;; Ret (sign_eqb ds SZero)) ;;   (* l.944 *)
  if zero : bool then _ <~ t_sign quotient SZero ;; t_sign remainder SZero
  else
    _ <~ t_divide cfg n (mag_at number) (mag_at divisor) (mag_at quotient) (mag_at remainder) ;;     (* l.950 *)
    ns <~ v_sign number ;; ds <~ v_sign divisor ;;                                                   (* l.951-967 *)
    _ <~ t_sign quotient (if sign_eqb ns SPos then (if sign_eqb ds SPos then SPos else SNeg)
                       else (if sign_eqb ds SPos then SNeg else SPos)) ;;
    _ <~ t_sign remainder (if sign_eqb ns SPos then SPos else SNeg) ;;
    _ <~ t_fix_zero n quotient ;;                                                                    (* l.969-970 *)
    t_fix_zero n remainder.                                                                          (* l.971-972 *)
(** l.204: a copy, inverted, returned; then l.186 *)
Definition t_snegate (n : Z) (d s : loc) : act unit :=
  x <~ v_sign s ;; b <~ v_copy n (base_ s) ;; t_sput n d (s_inverse (mk_aesi x b)).
(** l.981-986, 186 *)
Definition t_ssqrt (cfg : config) (n : Z) (d a : loc) : act unit :=
  s <~ v_sign a ;;
  if sign_eqb s SPos then r <~ v_squareRoot cfg (gfuel n) n (base_ a) ;; t_sput n d (mk_aesi SPos r)
  else r <~ pure (s_from_int n int32 0) ;; t_sput n d r.

(** ** Programs *)
(** one call of the public interface, at the lines given with each case *)
Definition stexec (cfg : config) (n : Z) (i : sinstr) : act unit :=
  match i with
  | SCopy d s => t_scopy n (Var d) (Var s)                                               (* l.186 *)
  | SLit d t v => r <~ pure (s_from_int n t v) ;; t_sput n (Var d) r                      (* l.178 *)
  | SOp o d s => t_sop_assign cfg o n (Var d) (Var s)
  | SBin o d a b => t_sbinary cfg o n (Var d) (Var a) (Var b)
  | SInc d => t_sinc n (Var d)                                                           (* l.210 *)
  | SDec d => t_sdec n (Var d)                                                           (* l.230 *)
  | SNegate d s => t_snegate n (Var d) (Var s)                                           (* l.204 *)
  | SInverse d => t_inverse (Var d)                                                      (* l.927 *)
  | SMulLit d t v => t_smul_int cfg n t (Var d) v                                        (* l.426 *)
  | SDivLit d t v => t_sdiv_int cfg n t (Var d) v                                        (* l.492 *)
  | SSwap a b => t_sswap n (Var a) (Var b)                                               (* l.918 *)
  | SDivide nu de q r => t_sdivide cfg n (Var nu) (Var de) (Var q) (Var r)               (* l.942 *)
  | SSqrt d a => t_ssqrt cfg n (Var d) (Var a)                                           (* l.981 *)
  | SPow2 d k => r <~ pure (s_power2 cfg n k) ;; t_sput n (Var d) r                       (* l.993 *)
  end.
(** l.619, 754, 877, 884, 891 *)
Definition sttest (cfg : config) (n : Z) (c : scond) : act bool :=
  match c with
  | SCEq a b => v_seq cfg n (Var a) (Var b)
  | SCNe a b => e <~ v_seq cfg n (Var a) (Var b) ;; Ret (negb e)
  | SCLt a b => v_srel cfg n (Var a) (Var b) (fun o => match o with OLess => true | _ => false end)
  | SCLe a b => v_srel cfg n (Var a) (Var b) (fun o => match o with OGreater => false | _ => true end)
  | SCGt a b => v_srel cfg n (Var a) (Var b) (fun o => match o with OGreater => true | _ => false end)
  | SCGe a b => v_srel cfg n (Var a) (Var b) (fun o => match o with OLess => false | _ => true end)
  | SCZero a => s <~ v_sign (Var a) ;; Ret (sign_eqb s SZero)
  | SCPos a => s <~ v_sign (Var a) ;; Ret (sign_eqb s SPos)
  | SCNeg a => s <~ v_sign (Var a) ;; Ret (sign_eqb s SNeg)
  end.
(** no code: if, while and sequencing of the calling program *)
Fixpoint strun (cfg : config) (n : Z) (fuel : nat) (s : stmt sinstr scond) : act unit :=
  match fuel with
  | O => Stop OutOfFuel
  | S f =>
      match s with
      | Skip => Ret tt
      | Do i => stexec cfg n i
      | Seq s t => _ <~ strun cfg n f s ;; strun cfg n f t
      | If c s t => b <~ sttest cfg n c ;; strun cfg n f (if b : bool then s else t)
      | While c s => b <~ sttest cfg n c ;; if b : bool then _ <~ strun cfg n f s ;; strun cfg n f (While c s) else Ret tt
      end
  end.
(** no code: the signed object [x] in a store of cells *)
Definition signed_at (cells : nat -> list Z) (x : nat) : aesi :=
  mk_aesi (decode (znth (cells (2 * x + 1)%nat) 0)) (cells (2 * x)%nat).
(** no code: all threads start; thread [t] runs program [t], with at most [fuel] nested steps *)
Definition sstart (cfg : config) (n : Z) (fuel : nat) (shared : nat -> list Z)
    (progs : list (stmt sinstr scond * (nat -> list Z))) : world :=
  (shared, map (fun '(p, tmp) => mk_thread (strun cfg n fuel p) tmp) progs).
