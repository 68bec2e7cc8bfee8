(** Model of the trimming function of HGS on the numbers the driver models use.
    Source: algorithms/HGS/tools.py:26-33 (the same code as ClassicHGS.py:367-374). *)
From Verif Require Import Spec.
Local Open Scope Z_scope.

(** HGS/tools.py:30-33: the leading [bits_no] bits of the mantissa are kept, the others become 0.  The
    mantissa of a normal double starts with its highest bit; subnormal numbers are left out here
    (TrimModel has the digits as floatextras gives them). *)
Definition trim_bits (bits_no : nat) (x : Z) : Z :=
  let dropped := Z.max 0 (Z.log2 (Z.abs x) + 1 - Z.of_nat bits_no) in
  Z.sgn x * (Z.abs x / 2 ^ dropped * 2 ^ dropped).
(** HGS/tools.py:26-27 *)
Definition trim_genes (bits_no : nat) (vector : vec) : vec := map (trim_bits bits_no) vector.
