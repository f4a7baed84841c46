(** Geo.v - model of stl-to-ps/geo.h and geo.cc. *)
From Verif Require Import Base Num.

Section Geo.
  Context {A : Arith}.
  Local Open Scope num_scope.

  (** geo.h:37  constexpr double PI = 3.1415926535897932 *)
  Definition PI : num := of_dec 31415926535897932 (-16).

  (** geo.h:40-44  Order *)
  Definition order (l r : v3) : bool :=
    if nne (x3 l) (x3 r) then x3 l <? x3 r
    else if nne (y3 l) (y3 r) then y3 l <? y3 r
    else z3 l <? z3 r.

  (** geo.h:51  point_set = std::set<RowVector3d, PointOrder> *)
  Definition point_set := list v3.
  Definition ps_insert (p : v3) (s : point_set) : point_set := sset_insert order p s.
  Definition ps_mem (p : v3) (s : point_set) : bool := sset_mem order p s.

  (** geo.h:56-63  Line; the 3D constructor (60-61) drops z. *)
  Record line := Line { lo : v2; lt_ : v2 }.
  Definition line3 (o t : v3) : line := Line (xy o) (xy t).

  (** geo.h:65-76  Arc; the 3D constructor (71-74) stores angles. *)
  Record arc := Arc { ac : v2; ar : num; astart : num; aend : num }.
  Definition arc3 (c : v3) (r : num) (s e : v3) : arc :=
    Arc (xy c) r (natan2 (y3 s) (x3 s)) (natan2 (y3 e) (x3 e)).

  (** geo.h:84-89  constants; negation is exact so -point::x is written out. *)
  Definition px : v3 := V3 n1 nz nz.
  Definition py : v3 := V3 nz n1 nz.
  Definition pz : v3 := V3 nz nz n1.

  (** geo.h:96-102  the six named view matrices, by rows. *)
  Definition mXP : m3 := M3 pz px py.
  Definition mXN : m3 := M3 (neg3 pz) (neg3 px) py.
  Definition mYP : m3 := M3 (neg3 px) pz py.
  Definition mYN : m3 := M3 px (neg3 pz) py.
  Definition mZP : m3 := M3 px py pz.
  Definition mZN : m3 := M3 px (neg3 py) (neg3 pz).

  (** geo.cc:35-45  Rotate *)
  Definition geo_rotate (ang azm : num) : m3 :=
    let ang_sin := nsin ang in let ang_cos := ncos ang in
    let azm_sin := nsin (- azm) in let azm_cos := ncos (- azm) in
    M3 (V3 ang_cos (ang_sin * azm_cos) (ang_sin * azm_sin))
       (V3 (- ang_sin) (ang_cos * azm_cos) (ang_cos * azm_sin))
       (V3 nz (- azm_sin) azm_cos).

  (** geo.h:107-111  operator< on lines *)
  Definition line_lt (l r : line) : bool :=
    if nne (x2 (lo l)) (x2 (lo r)) then x2 (lo l) <? x2 (lo r)
    else if nne (y2 (lo l)) (y2 (lo r)) then y2 (lo l) <? y2 (lo r)
    else if nne (x2 (lt_ l)) (x2 (lt_ r)) then x2 (lt_ l) <? x2 (lt_ r)
    else y2 (lt_ l) <? y2 (lt_ r).

  (** geo.h:113-115  operator== on lines *)
  Definition line_eq (l r : line) : bool := eq2 (lo l) (lo r) && eq2 (lt_ l) (lt_ r).
End Geo.
