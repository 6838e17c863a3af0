(** Independent vocabulary for complex layers. *)
From Coq Require Import List ZArith Arith Reals.
From Verif Require Import Cplx.
Import ListNotations.
Local Open Scope R_scope.

(** A bilinear operation of two tensors (convolution, matrix product, ... with any stride, padding and dilation): every entry of the result
    is the sum of products of the listed pairs of entries. *)
Definition real_bilinear (pairs : list (list (nat * nat))) (x k : list R) : list R :=
  map (fun ps => Rsum (fun p => nth (fst p) x 0 * nth (snd p) k 0) ps) pairs.
Definition complex_bilinear (pairs : list (list (nat * nat))) (x k : list C) : list C :=
  map (fun ps => Csum (fun p => Cmult (nth (fst p) x C0) (nth (snd p) k C0)) ps) pairs.

(** Hyperbolic cosine of a complex number. *)
Definition Ccosh (z : C) : C := Cscale (/ 2) (Cplus (Cexp z) (Cexp (Copp z))).
