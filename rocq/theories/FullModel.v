(** * A convolver with its expansions: the local cube of a call is built from sky and beam. *)
From Coq Require Import ZArith Reals List Bool.
From Verif Require Import Base Num NumR GridModel RouteModel InterpModel ConvolveModel RealMain AlmModel HarmModel WigModel WigLemmas.
Import ListNotations.

(** conv_acc: conviqt.hpp:28. *)
Definition conv_acc : R := (/ 10 ^ 30)%R.

(** The configuration of a convolver over the reals: conviqt_math.cpp:112-195, 643-795, 898-1066.  [pol], [s], [b]: the
    flag and the expansions; [fft]: cfft::backward.  The overflow of C47 is taken to wrap. *)
Definition full_config (lmax mmax order : Z) (pol : bool) (s b : coefs RNum) (fft : list (R * R) -> list (R * R))
     (srt : sorter RNum) (v : Z) (eps : R) (norm : bool) : config RNum :=
  let g := make_grid RNum lmax mmax order in
  MkConfig (N:=RNum) g (build_cube g (wig_ops RW false) (wig_new RW lmax conv_acc) pol s b fft) srt nbin_code (Ok v) eps norm.
