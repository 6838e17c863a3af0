(** Model of operators/j1j2.py: the coloured edge list and the declared connection count. *)
From Coq Require Import List Arith Bool.
From Verif Require Import Base.
Import ListNotations.

(** An entry of edge_colors: first site, second site, colour. *)
Definition edge := (nat * nat * nat)%type.

(** j1j2.py:15-26, body of the inner loop over w. *)
Definition inner_body (L1 L2 : nat) (pbc : bool) (h w : nat) : list edge :=
  [(w + L2 * h, w + 1 + L2 * h, 1)] ++
  (if h <? L1 - 1 then
     [(w + L2 * h, w + L2 * (h + 1), 1); (w + L2 * h, w + 1 + L2 * (h + 1), 2)]
   else if pbc then [(w + L2 * h, w, 1); (w + L2 * h, w + 1, 2)]
   else []) ++
  (if 0 <? h then [(w + L2 * h, w + 1 + L2 * (h - 1), 2)]
   else if pbc then [(w + L2 * h, w + 1 + L2 * (L1 - 1), 2)]
   else []).

(** j1j2.py:27-35, the last column. *)
Definition last_column (L1 L2 : nat) (pbc : bool) (h : nat) : list edge :=
  let w := L2 - 1 in
  (if pbc then
     [(L2 - 1 + L2 * h, L2 * h, 1);
      (w + L2 * h, L2 * ((h + 1) mod L1), 2);
      (w + L2 * h, L2 * ((L1 + h - 1) mod L1), 2)]
   else []) ++
  (if h <? L1 - 1 then [(w + L2 * h, w + L2 * (h + 1), 1)]
   else if pbc then [(w + L2 * h, w, 1)]
   else []).

(** j1j2.py:13-35: edge_colors, for L1, L2 >= 1 (natural number subtraction). *)
Definition edge_colors (L1 L2 : nat) (pbc : bool) : list edge :=
  flat_map (fun h => flat_map (inner_body L1 L2 pbc h) (range (L2 - 1)) ++ last_column L1 L2 pbc h) (range L1).

(** j1j2.py:59-60: declared maximal number of connections; only two dimensional shapes are accepted. *)
Definition j1j2_max_conn (shape : list nat) : res nat :=
  let m := fold_right Nat.mul 1 shape * length shape * 2 + 1 in
  if length shape =? 2 then Ok m else Err AssertionError.
