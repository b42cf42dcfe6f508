(** * MachProg: programs on the functions with machine counters, indices and shifts.

    The instructions of [ProgSpec.v] and [WholeSpec.v], each executed by the function of MachModel.v, MachSigned.v or
    MachText.v.  Operands are passed by value here; operands that are the same object are the subject of
    AliasModel.v and C61-C63.  readBinary and writeBinary (Aeu.h l.1437-1464) go through the blocks with iterators and
    have no counters: they are those of BinModel.v.  [F] bounds the iterations of each counted loop as in MachModel.v. *)
From Verif Require Export MachText WholeModel.
Open Scope Z_scope.

(** Aeu.h l.741-743 operator== *)
Definition w_eq (cfg : config) (F : nat) (n m : Z) (a b : list Z) : outcome bool := c <- w_compareTo cfg F n m a b ;; Ok (cmp_eqb c CEqual).
(** Aeu.h l.741-743, rewritten from == *)
Definition w_ne (cfg : config) (F : nat) (n m : Z) (a b : list Z) : outcome bool := e <- w_eq cfg F n m a b ;; Ok (negb e).
(** Aeu.h l.850-862 *)
Definition w_gt (cfg : config) (F : nat) n m a b := c <- w_compareTo cfg F n m a b ;; Ok (match to_ordering c with OGreater => true | _ => false end).
(** Aeu.h l.850-862 *)
Definition w_le (cfg : config) (F : nat) n m a b := c <- w_compareTo cfg F n m a b ;; Ok (match to_ordering c with OGreater => false | _ => true end).

(** Aeu.h l.352-643: [a @= b], and [a @ b] on a copy *)
Definition wu_binary (cfg : config) (F : nat) (o : cop) (n : Z) (a b : list Z) : outcome (list Z) :=
  match o with
  | OAdd => w_add F n a b | OSub => w_sub F n a b | OMul => w_mul F n a b
  | ODiv => w_div cfg F n a b | OMod => w_mod cfg F n a b
  | OXor => w_bitwise Z.lxor F n a b | OAnd => w_bitwise Z.land F n a b | OOr => w_bitwise Z.lor F n a b
  end.
(** Aeu.h l.158: the variable [d] gets the result *)
Definition wu_store (m : mem) (d : nat) (call : outcome (list Z)) : outcome mem := r <- call ;; Ok (mput m (Var d) r).
(** one call of the public interface of Aeu.h, at the lines given with each case *)
Definition wu_exec (cfg : config) (F : nat) (n : Z) (m : mem) (i : uinstr) : outcome mem :=
  match i with
  | UCopy d s => wu_store m d (Ok (m (Var s)))                                          (* l.158 *)
  | ULit d v => wu_store m d (w_from_unsigned F n (zeros n) v)                          (* l.167-186 *)
  | UOp o d s => wu_store m d (wu_binary cfg F o n (m (Var d)) (m (Var s)))
  | UBin o d a b => wu_store m d (wu_binary cfg F o n (m (Var a)) (m (Var b)))
  | UInc d => wu_store m d (w_inc F n (m (Var d)))                                      (* l.295 *)
  | UDec d => wu_store m d (w_dec F n (m (Var d)))                                      (* l.315 *)
  | UNeg d s => wu_store m d (w_neg F n (m (Var s)))                                    (* l.287 *)
  | UNot d s => wu_store m d (w_not F n (zeros n) (m (Var s)))                          (* l.566 *)
  | UShl d k => wu_store m d (w_shl F n (m (Var d)) k)                                  (* l.662 *)
  | UShr d k => wu_store m d (w_shr F n (m (Var d)) k)                                  (* l.700 *)
  | USetBit d i b => wu_store m d (w_setBit cfg n (m (Var d)) i b)                      (* l.896 *)
  | UAddLit d t v => wu_store m d (w_add_u F n t (m (Var d)) v)                         (* l.363 *)
  | UMulLit d t v => wu_store m d (w_mul_u F n t (m (Var d)) v)                         (* l.438 *)
  | USwap a b => Ok (mput (mput m (Var a) (m (Var b))) (Var b) (m (Var a)))             (* l.1072 *)
  | UDivide nu de q r => '(x, y) <- w_divide cfg F n (m (Var nu)) (m (Var de)) ;; Ok (mput (mput m (Var q) x) (Var r) y)  (* l.1087 *)
  | UGcd d a b => wu_store m d (w_gcd cfg F (gfuel n) n (m (Var a)) (m (Var b)))        (* l.1162 *)
  | ULcm d a b => wu_store m d (w_lcm cfg F (gfuel n) n (m (Var a)) (m (Var b)))        (* l.1189 *)
  | USqrt d a => wu_store m d (w_squareRoot cfg F (gfuel n) n (m (Var a)))              (* l.1256 *)
  | UPow2 d k => wu_store m d (w_power2 cfg n k)                                        (* l.1248 *)
  | UPowm d b p md => wu_store m d (w_powm cfg F n (m (Var b)) (m (Var p)) (m (Var md)))(* l.1224 *)
  end.
(** Aeu.h l.741, 850, 1027, 1041, 915 *)
Definition wu_test (cfg : config) (F : nat) (n : Z) (m : mem) (c : ucond) : outcome bool :=
  match c with
  | CEq a b => w_eq cfg F n n (m (Var a)) (m (Var b)) | CNe a b => w_ne cfg F n n (m (Var a)) (m (Var b))
  | CLt a b => w_lt cfg F n n (m (Var a)) (m (Var b)) | CLe a b => w_le cfg F n n (m (Var a)) (m (Var b))
  | CGt a b => w_gt cfg F n n (m (Var a)) (m (Var b)) | CGe a b => w_ge cfg F n n (m (Var a)) (m (Var b))
  | COdd a => isOdd (m (Var a)) | CIsZero a => w_isZero F n (m (Var a))
  | CBit a i => w_getBit cfg n (m (Var a)) i
  end.

(** Aesi.h l.255-600: [a @= b], and [a @ b] on a copy *)
Definition wsg_binary (cfg : config) (F : nat) (o : scop) (n : Z) (a b : aesi) : outcome aesi :=
  match o with
  | SOAdd => ws_add F cfg n a b | SOSub => ws_sub F cfg n a b | SOMul => ws_mul F n a b
  | SODiv => ws_div F cfg n a b | SOMod => ws_mod F cfg n a b
  end.
(** Aesi.h l.186: the variable [d] gets the result *)
Definition wsg_store (m : smem) (d : nat) (call : outcome aesi) : outcome smem := r <- call ;; Ok (sput m (Var d) r).
(** one call of the public interface of Aesi.h, at the lines given with each case *)
Definition wsg_exec (cfg : config) (F : nat) (n : Z) (m : smem) (i : sinstr) : outcome smem :=
  match i with
  | SCopy d s => wsg_store m d (Ok (m (Var s)))                                         (* l.186 *)
  | SLit d t v => wsg_store m d (ws_assign_int F n t (m (Var d)) v)                     (* l.178 *)
  | SOp o d s => wsg_store m d (wsg_binary cfg F o n (m (Var d)) (m (Var s)))
  | SBin o d a b => wsg_store m d (wsg_binary cfg F o n (m (Var a)) (m (Var b)))
  | SInc d => wsg_store m d (ws_inc F n (m (Var d)))                                    (* l.210 *)
  | SDec d => wsg_store m d (ws_dec F n (m (Var d)))                                    (* l.230 *)
  | SNegate d s => wsg_store m d (s_neg (m (Var s)))                                    (* l.204 *)
  | SInverse d => wsg_store m d (Ok (s_inverse (m (Var d))))                            (* l.927 *)
  | SMulLit d t v => wsg_store m d (ws_mul_assign_int F cfg n t (m (Var d)) v)          (* l.426 *)
  | SDivLit d t v => wsg_store m d (ws_div_assign_int F cfg n t (m (Var d)) v)          (* l.492 *)
  | SSwap a b => Ok (sput (sput m (Var a) (m (Var b))) (Var b) (m (Var a)))             (* l.918 *)
  | SDivide nu de q r =>
      '(x, y) <- ws_divide F cfg n (m (Var nu)) (m (Var de)) (m (Var q)) (m (Var r)) ;; Ok (sput (sput m (Var q) x) (Var r) y)  (* l.942 *)
  | SSqrt d a => wsg_store m d (ws_squareRoot F cfg (gfuel n) n (m (Var a)))            (* l.981 *)
  | SPow2 d k => wsg_store m d (ws_power2 F cfg n k)                                    (* l.993 *)
  end.
(** Aesi.h l.619, 754, 877, 884, 891 *)
Definition wsg_test (cfg : config) (F : nat) (n : Z) (m : smem) (c : scond) : outcome bool :=
  match c with
  | SCEq a b => ws_eq F cfg n n (m (Var a)) (m (Var b)) | SCNe a b => ws_ne F cfg n n (m (Var a)) (m (Var b))
  | SCLt a b => ws_lt F cfg n n (m (Var a)) (m (Var b)) | SCLe a b => ws_le F cfg n n (m (Var a)) (m (Var b))
  | SCGt a b => ws_gt F cfg n n (m (Var a)) (m (Var b)) | SCGe a b => ws_ge F cfg n n (m (Var a)) (m (Var b))
  | SCZero a => Ok (s_isZero (m (Var a))) | SCPos a => Ok (s_isPositive (m (Var a))) | SCNeg a => Ok (s_isNegative (m (Var a)))
  end.

(** One instruction of a whole program; lines as in WholeModel.v. *)
Definition ww_exec (cfg : config) (F : nat) (le wide : bool) (alnum : Z -> bool) (m : wmem) (i : winstr) : outcome wmem :=
  match i with
  | WU n i => x <- wu_exec cfg F n (mu m n) i ;; Ok (put_mu m n x)
  | WS n i => x <- wsg_exec cfg F n (ms m n) i ;; Ok (put_ms m n x)
  | WCast n s k d => x <- w_precisionCast cfg F n k (mu m n (Var s)) ;; Ok (assign_u m k d x)
  | WSCast n s k d => x <- ws_precisionCast F cfg n k (ms m n (Var s)) ;; Ok (assign_s m k d x)
  | WSigned n s d => Ok (assign_s m n d (s_from_aeu (mu m n (Var s))))
  | WUnsigned n s d => Ok (assign_u m n d (s_unsignedCast (ms m n (Var s))))
  | WTrunc n s t k d => v <- w_integralCast t (mu m n (Var s)) ;; x <- w_from_unsigned F k (zeros k) v ;; Ok (assign_u m k d x)
  | WSTrunc n s t k d => v <- ws_integralCast F t (ms m n (Var s)) ;; x <- ws_from_int F k t v ;; Ok (assign_s m k d x)
  | WPowm n d b k p q => x <- w_powm_x cfg F n k (mu m n (Var b)) (mu m k (Var p)) (mu m n (Var q)) ;; Ok (assign_u m n d x)
  | WRead n d =>
      match minput m with
      | t :: rest => x <- w_from_string F n wide alnum t ;; Ok (assign_u (put_input m rest) n d x)
      | [] => Ok m
      end
  | WSRead n d =>
      match minput m with
      | t :: rest => x <- ws_from_string F n wide alnum t ;; Ok (assign_s (put_input m rest) n d x)
      | [] => Ok m
      end
  | WBase b => Ok (put_os m (os_setbase (mos m) b))
  | WPrint n s => os <- w_stream_insert F cfg n (mos m) (mu m n (Var s)) ;; Ok (put_os m os)
  | WSPrint n s => os <- ws_stream_insert F cfg n (mos m) (ms m n (Var s)) ;; Ok (put_os m os)
  | WText t => Ok (put_os m (os_put (mos m) t))
  | WSave be n s => o <- writeBinary le n (mu m n (Var s)) (mk_bos (mfile m) None true) be ;; Ok (put_file m (obytes o))
  | WLoad be n d => '(x, i) <- readBinary le n (mk_is (mfile m) true) be ;; Ok (assign_u (put_file m (ibytes i)) n d x)
  end.
(** comparisons across widths: Aeu.h l.741-743, l.850-862, Aesi.h l.619-625, l.754-766 *)
Definition ww_test (cfg : config) (F : nat) (m : wmem) (c : wcond) : outcome bool :=
  match c with
  | WUc n c => wu_test cfg F n (mu m n) c
  | WSc n c => wsg_test cfg F n (ms m n) c
  | WEq n a k b => w_eq cfg F n k (mu m n (Var a)) (mu m k (Var b))
  | WLt n a k b => w_lt cfg F n k (mu m n (Var a)) (mu m k (Var b))
  | WSEq n a k b => ws_eq F cfg n k (ms m n (Var a)) (ms m k (Var b))
  | WSLt n a k b => ws_lt F cfg n k (ms m n (Var a)) (ms m k (Var b))
  | WMore => Ok (match minput m with [] => false | _ => true end)
  end.
(** no code: the program *)
Definition ww_run (cfg : config) (F : nat) (le wide : bool) (alnum : Z -> bool) := run (ww_exec cfg F le wide alnum) (ww_test cfg F).
