(** Model of layers/complex/histograms.py. *)
From Coq Require Import List Reals String.
From Verif Require Import Base Cplx ComplexConvModel.
Import ListNotations.

(** histograms.py:11-18 [LogSpaceComplexNumberHistograms.call]: what the layer returns, and the values of the three summaries with their tags. A tensor is the list of
    its entries. Which bins a histogram has, and when summaries are written, is up to tensorflow. *)
Definition histograms_call (x : list C) : list C * list (string * list R) :=
  (x, [("magnitude"%string, map (fun z => (2 * Re z)%R) x);
       ("phase"%string, map Im x);
       ("normalized_phase"%string, map (fun z => floormod (Im z) (2 * PI)) x)]).
