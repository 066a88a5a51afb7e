(** The program nmpc_fmpc/tests/src/TestMathUtils.cpp. *)
From Verif Require Import Prelude Scalar LinAlg Fmpc Problems.

Section MathTest.
  Context {T : Type} {N : Num T}.
  Variables nsin ncos : T -> T.     (* std::sin, std::cos *)
  Local Open Scope num_scope.

  (** TestMathUtils.cpp:25 and 63-64: the difference quotient of the 1-norm, from the values of the function at both points. *)
  Definition l1_quotient (eps : T) (func func' : vec T) : T := (nsum (map nabs func') - nsum (map nabs func)) / eps.
  (** TestMathUtils.cpp:27 and 66: the EXPECT_LT, and whether it holds. *)
  Definition l1_expect (tol eps : T) (func : vec T) (jac : mat T) (dir func' : vec T) : bool :=
    nabs (l1_deriv func jac dir - l1_quotient eps func func') <? tol.

  (** TestMathUtils.cpp:9: deriv_eps = 1e-6. *)
  Definition deriv_eps : T := nlit 1 1000000.
  (** TestMathUtils.cpp:24-27: one pass of the first loop, [func] and [dir] after lines 17-22. *)
  Definition identity_check (func dir : vec T) : bool :=
    l1_expect (nlit 1 100000) deriv_eps func (mid (length func)) dir (vadd func (vscale deriv_eps dir)).

  (** TestMathUtils.cpp:36-43 sample_func. std::pow(a, 2) and std::pow(a, 3) are products. *)
  Definition sample_func (x : vec T) : vec T :=
    let x1 := vget x 1 in let x2 := vget x 2 in
    [sqnorm x - nofZ 10;
     x1 * x1 * x1 + nofZ (-5) * (x2 * x2) + nofZ 10 * vget x 3 + nofZ (-20);
     nsin (vget x 0) + ncos x1].
  (** TestMathUtils.cpp:44-51 sample_jac. *)
  Definition sample_jac (x : vec T) : mat T :=
    let x1 := vget x 1 in
    mkmat 3 4
      [[nofZ 2 * vget x 0; nofZ 2 * x1; nofZ 2 * vget x 2; nofZ 2 * vget x 3];
       [nzero; nofZ 3 * (x1 * x1); nofZ (-10) * vget x 2; nofZ 10];
       [ncos (vget x 0); nofZ (-1) * nsin x1; nzero; nzero]].
  (** TestMathUtils.cpp:62-66: one pass of the second loop, [x] and [dir] after lines 55-60. *)
  Definition nonlinear_check (x dir : vec T) : bool :=
    l1_expect (nlit 1 1000) deriv_eps (sample_func x) (sample_jac x) dir (sample_func (vadd x (vscale deriv_eps dir))).
End MathTest.
