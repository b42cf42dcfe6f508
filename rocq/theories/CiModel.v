(** * CiModel: the project's smoke, integration and benchmark programs, with their constants as parameters.

    Sources: /repo/ci/cuda/smoke.cu, /repo/ci/integration/main.cpp, /repo/benchmark/*.cpp.  Simplified: a kernel launch
    <<<1, 1>>> is one sequential call (Aeu.h l.1 ff. compiles the same functions for the device); google-benchmark's
    [for (auto _ : state)] is a loop of an arbitrary number of iterations and [DoNotOptimize] does nothing. *)
From Verif Require Export UseModel.
From Coq Require Import String Ascii.
Open Scope Z_scope.
Open Scope list_scope.

(** smoke.cu l.4-8 unsignedKernel: [*out = *a + *b; *out *= *b;] (the pointers may be equal) *)
Definition unsigned_kernel (cfg : config) (n : Z) (m : mem) (a b out : loc) : outcome mem :=
  m <- aeu_binary cfg OAdd n m out a b ;; aeu_assign cfg OMul n m out b.
(** smoke.cu l.10-14 signedKernel *)
Definition signed_kernel (cfg : config) (n : Z) (m : smem) (a b out : loc) : outcome smem :=
  m <- aesi_binary cfg SOAdd n m out a b ;; aesi_assign cfg SOMul n m out b.

(** ci/integration/main.cpp l.4-8: [const Aeu512 number = "0x..."; cout << hex << showbase << number << endl;] *)
Definition integration_main (cfg : config) (n : Z) (wide : bool) (alnum : Z -> bool) (literal : list Z) (cout : ostream) : outcome ostream :=
  number <- from_literal n wide alnum literal ;;
  os <- stream_insert cfg n (os_showbase (os_hex cout)) number ;;
  Ok (mk_os (out os ++ [10]) (basef os) (showbase os) (uppercase os) (fillc os) (width os) (adj os)).

(** addition.cpp l.24-28, subtraction.cpp, multiplication.cpp, division.cpp, modulo.cpp: two numbers from literals,
    [result {}] is zero, [result = left op right] in every iteration. *)
Definition bench_binary (op : list Z -> list Z -> outcome (list Z)) (n : Z) (alnum : Z -> bool) (left right : list Z) (iterations : Z)
    : outcome (list Z) :=
  left <- from_literal n false alnum left ;; right <- from_literal n false alnum right ;;
  forU 0 iterations (fun _ _ => op left right) (zeros n).
(** benchmark/addition.cpp l.24-28 *)
Definition addition_Aesi (n : Z) := bench_binary (op_add n) n.
(** benchmark/subtraction.cpp l.46-50 *)
Definition subtraction_Aesi (n : Z) := bench_binary (op_sub n) n.
(** benchmark/multiplication.cpp l.39-43 *)
Definition multiplication_Aesi (n : Z) := bench_binary (op_mul n) n.
(** benchmark/division.cpp l.46-50 *)
Definition division_Aesi (cfg : config) (n : Z) := bench_binary (op_div cfg n) n.
(** benchmark/modulo.cpp l.46-50 *)
Definition modulo_Aesi (cfg : config) (n : Z) := bench_binary (op_mod cfg n) n.
(** gcd.cpp l.41-45 *)
Definition gcd_Aesi (cfg : config) (n : Z) := bench_binary (gcd cfg (gfuel n) n) n.
(** powm.cpp l.28-32 *)
Definition powm_Aesi (cfg : config) (n : Z) (alnum : Z -> bool) (base power modulo : list Z) (iterations : Z) : outcome (list Z) :=
  base <- from_literal n false alnum base ;; power <- from_literal n false alnum power ;; modulo <- from_literal n false alnum modulo ;;
  forU 0 iterations (fun _ _ => powm cfg n base power modulo) (zeros n).

(** The character codes of a literal. *)
(** no code: a string literal as its characters *)
Fixpoint chars (s : string) : list Z :=
  match s with EmptyString => [] | String c t => Z.of_N (N_of_ascii c) :: chars t end.
(** addition.cpp l.6-8 *)
Definition addition_data : list Z := chars "0x56612239db6d8ce375c48f335a4ba6f4933c871a672f6e66c7899af62393b55fb0fd38984923f6c7eb2d5f97b66ac90bedaf1978972ec071c899f05d006caa686401d48c670c3c49553c15c3b7053eddc1878132dfce005cb4d8151fee333b98656b4fc831c569bf7909f929ee6b6f693df50e2c049643195e2f648d593fb543"%string.
(** multiplication.cpp l.6-13 *)
Definition multiplication_left : list Z := chars "0xa24872afd57464d79dfeec239367995f623429772ec032eb3bc9b376d0775c956dcb330a2c4f8f0d001f62fe6e0b2e3b024d8f352522f3aa0ac7fbf05e7e3a2038e4650efb641862969f2437084448a28ff14d9c1e2def670babcf65a8bcf32944a0f13525588a09a88a93e209ea0951e2ec64b7ec6904012f1c2f0528f9c68597e4cb39b33bae0dcc84a8c7aa93733c0a5bb987b0c231e099aeb793c5fcbbdd9963aaff6ccbd2198b8898f71d60f8dcd8d0719f9b849951960c1699b751dda0da6b9cc5a0ea9a04d126a00ce2c3bdaf8ea5e9123d34a00fbd21c31b12fa50d0a504f394bdce92bc1bc81af39a297c232e16af614ae8743a5333e2e1f016e08c09d7520f92da4a54de6819bec543645d4f3bc42c7948164c9086cfd3b528ce5839125cfe4a991c66d69b6cf4cef13fb96095f774189943b189373bb931c5e7616f9b416de77d28c16a14a980f664352dc3b03026875f0db91a645a7acff73e79a815329df6c3dfac4c1ba96a1a9ce50b51cc1722f23586"%string.
(** multiplication.cpp l.15-23 *)
Definition multiplication_right : list Z := chars "0xdb446efadae5960843e38dbdc26afc0c6d6633d0e3f7983b11d7610838b2707f3bcfeb19b071a967738efb939cfe36278016a3127f0bbe2cc3ea8bb25d827ce4738db0275c95705462c52b13544a446fa14b4727aa6a472d766acb36d6eb1cfc4508ba194b65e816a7343eff12d50669040a7629f04300a5bc4bb98df0191884b6d8236341854a1dcf0e3d0f54615b1d9a4eb83fcd1ceecc0b906ad6cae9137baf43136d4e00a2638e7897e3b60b4330df9917e2f62742233c24d325d42f14a9ba79f454a6cb5b3617e199335acaa4fd901721287498db25aac318abb51f2c4e9bc2e556168fd9c7791285c4e30119bca7a4bd63db4f47fad992880389d21e03b1386a492326981cf8524b538cbfe4397df8bcfebc108bab8b2500ed99ac8b048a5307fc5ac4a03c5672fefde43454aa323be66e77e797b23d5865f7454be74195e7857edf825d5bb62a1a327148f4e8405f2ee2622122d3d8c967f2fdc6e05a8c1d40c93f3c0dfeb5b8b4c9f1755a9c26f351ac1cdebf"%string.
(** powm.cpp l.11-12 *)
Definition powm_modulo : list Z := chars "0x2417bbd015ab67eff98d57662f7fe82d006fb86ba1ec18d48e7563a19357ed0e7658d5aa115687cbd6c7151a30892041ab6f8f7be9e3b828ff39a4688402"%string.
(** ci/integration/main.cpp l.5, after 0x *)
Definition main_literal : list Z := chars "ffff'ffff'ffff'ffff'ffff'ffff'ffff'ffff'ffff'ffff"%string.
