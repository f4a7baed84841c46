(** Stl.v - model of the geometry in stl-to-ps/stl.cc and stl.h
    (the text reader STLFile::Make is in StlRead.v). *)
From Verif Require Import Base Num Geo.

Section Stl.
  Context {A : Arith}.
  Local Open Scope num_scope.

  (** stl.h:47  typedef std::pair<RowVector3d, RowVector3d> Edge *)
  Record edge := Edge { e1 : v3; e2 : v3 }.

  (** stl.h:51-59  struct Facet *)
  Record facet := Facet { fnorm : v3; fe0 : v3; fe1 : v3; fe2 : v3; fr : num }.
  Definition fverts (f : facet) : list v3 := [fe0 f; fe1 f; fe2 f].

  (** stl.cc:57-68  Facet::Facet.  The constructor indexes e[0..2] of its
      vector argument; the caller in StlRead.v makes a short vector undefined
      behaviour, so here exactly three points are passed. *)
  Definition mk_facet (n p0 p1 p2 : v3) : facet :=
    let norm := normalized3 (cross3 (sub3 p1 p0) (sub3 p2 p0)) in
    let flip := dot3 n norm <? nz in
    let q0 := if flip then p2 else p0 in
    let q2 := if flip then p0 else p2 in
    let norm' := if flip then mul3 norm (of_Z (-1)) else norm in
    Facet norm' q0 p1 q2
          (((dot3 norm' q0 + dot3 norm' p1) + dot3 norm' q2) / of_Z 3).

  (** stl.h:62-82  class STLFile *)
  Record stl := Stl {
    facets : list facet;
    edges : list edge;
    face_edge : list (nat * nat * nat);
    unseen : nat
  }.
  (** A default constructed STLFile (stl.h:78-81). *)
  Definition stl_empty : stl := Stl [] [] [] 0.

  (** stl.cc:148-154  CullBackFace.  The loop runs over indices i < j of one
      vector; [fuel] bounds the iterations and j - i decreases in each one, so
      the length of the vector is always enough (proved: cull_spec).
      A decrement of i followed by i++ is written as leaving i unchanged. *)
  Fixpoint cull_loop (fuel i j : nat) (l : list facet) : list facet :=
    match fuel with
    | O => firstn j l
    | S fuel' =>
        if (i <? j)%nat then
          match nth_error l i with
          | Some f =>
              if z3 (fnorm f) <=? nz
              then cull_loop fuel' i (j - 1) (swap_nth i (j - 1) l)
              else cull_loop fuel' (S i) j l
          | None => firstn j l
          end
        else firstn j l
    end.
  Definition cull_facets (l : list facet) : list facet :=
    cull_loop (length l) 0 (length l) l.
  Definition cull_back_face (s : stl) : stl :=
    Stl (cull_facets (facets s)) (edges s) (face_edge s) (unseen s).

  (** stl.cc:156-170  Limits *)
  Definition lim_step (b : v3 * v3) (e : v3) : v3 * v3 :=
    let '(mn, mx) := b in
    (V3 (nmin (x3 mn) (x3 e)) (nmin (y3 mn) (y3 e)) (z3 mn),
     V3 (nmax (x3 mx) (x3 e)) (nmax (y3 mx) (y3 e)) (z3 mx)).
  Definition limits (s : stl) : line :=
    match facets s with
    | [] => Line (V2 nz nz) (V2 nz nz)
    | f0 :: _ =>
        let '(mn, mx) := fold_left lim_step (flat_map fverts (facets s)) (fe0 f0, fe0 f0) in
        line3 mn mx
    end.

  (** stl.cc:278-283  Points *)
  Definition points (s : stl) : point_set :=
    fold_left (fun ps p => ps_insert p ps) (flat_map fverts (facets s)) [].

  (** stl.cc:287-293  EdgeOrder *)
  Definition edge_order (l r : edge) : bool :=
    if order (e1 l) (e1 r) then true
    else if order (e1 r) (e1 l) then false
    else order (e2 l) (e2 r).

  (** stl.cc:310, 352  geo::Order(a, b) ? Edge{a, b} : Edge{b, a} *)
  Definition mk_edge (a b : v3) : edge := if order a b then Edge a b else Edge b a.

  (** The three sides of a facet in the order used by stl.cc:323-325, 359-361. *)
  Definition side (f : facet) (k : nat) : edge :=
    match k with
    | 0%nat => mk_edge (fe0 f) (fe1 f)
    | 1%nat => mk_edge (fe1 f) (fe2 f)
    | _ => mk_edge (fe2 f) (fe0 f)
    end.

  (** State of the first loop of Index: the map dd, edges and edge_face. *)
  Record idx_st := Idx { i_dd : list (edge * nat); i_edges : list edge; i_ef : list (nat * nat) }.

  (** stl.cc:307-319  AddEdge.  edge_face[idx].second = f is [set_nth]. *)
  Definition add_edge (s : idx_st) (e : edge) (f : nat) : idx_st :=
    match smap_find edge_order e (i_dd s) with
    | None =>
        Idx (smap_emplace edge_order e (length (i_edges s)) (i_dd s))
            (i_edges s ++ [e]) (i_ef s ++ [(f, f)])
    | Some ix =>
        Idx (i_dd s) (i_edges s)
            (match nth_error (i_ef s) ix with
             | Some (a, _) => set_nth ix (a, f) (i_ef s)
             | None => i_ef s
             end)
    end.

  (** stl.cc:321-326 *)
  Definition add_facet (s : idx_st) (nf : nat * facet) : idx_st :=
    let '(n, f) := nf in
    add_edge (add_edge (add_edge s (side f 0) n) (side f 1) n) (side f 2) n.
  Definition enum {T} (l : list T) : list (nat * T) := combine (seq 0 (length l)) l.
  Definition collect_edges (fs : list facet) : idx_st :=
    fold_left add_facet (enum fs) (Idx [] [] []).

  (** stl.cc:48  min_ang *)
  Definition min_ang : num := of_dec 98 (-2).

  (** stl.cc:332-336: is the edge of facets (a1, a2) suppressed?  A facet index
      is always in range (proved); an out of range one would be undefined. *)
  Definition smooth (fs : list facet) (p : nat * nat) : bool :=
    let '(a1, a2) := p in
    if (a1 =? a2)%nat then false
    else match nth_error fs a1, nth_error fs a2 with
         | Some f1, Some f2 => negb (dot3 (fnorm f1) (fnorm f2) <? min_ang)
         | _, _ => false
         end.

  (** stl.cc:328-343.  Both vectors are permuted by the same swaps; the result
      carries the final value of unseen. *)
  Fixpoint hide_loop (fs : list facet) (fuel i j : nat) (ef : list (nat * nat)) (es : list edge)
    : list (nat * nat) * list edge * nat :=
    match fuel with
    | O => (ef, es, j)
    | S fuel' =>
        if (i <? j)%nat then
          match nth_error ef i with
          | Some p =>
              if smooth fs p
              then hide_loop fs fuel' i (j - 1) (swap_nth i (j - 1) ef) (swap_nth i (j - 1) es)
              else hide_loop fs fuel' (S i) j ef es
          | None => (ef, es, j)
          end
        else (ef, es, j)
    end.

  (** stl.cc:346-347  dd.clear(); dd[edges[i]] = i *)
  Definition reindex (es : list edge) : list (edge * nat) :=
    fold_left (fun m ie => smap_assign edge_order (snd ie) (fst ie) m) (enum es) [].

  (** stl.cc:350-362  UpdateEdge, with its CHECK *)
  Definition update_edge (dd : list (edge * nat)) (e : edge) : outcome nat :=
    match smap_find edge_order e dd with
    | Some ix => Ret ix
    | None => Abort (ACheck "edge not found")
    end.
  Definition update_face (dd : list (edge * nat)) (f : facet) : outcome (nat * nat * nat) :=
    do! a <- update_edge dd (side f 0);
    do! b <- update_edge dd (side f 1);
    do! c <- update_edge dd (side f 2);
    Ret (a, b, c).

  (** stl.cc:306, 321-326, 350-362: the keys the map of edges is used with. *)
  Definition map_keys (fs : list facet) : list edge :=
    flat_map (fun f => [side f 0; side f 1; side f 2]) fs.

  (** stl.cc:297-363  Index *)
  Definition index (fs : list facet) : outcome stl :=
    if strict_weak edge_order (map_keys fs) then
      let s := collect_edges fs in
      let '(_, es, un) := hide_loop fs (length (i_edges s)) 0 (length (i_edges s)) (i_ef s) (i_edges s) in
      do! fe <- omap (update_face (reindex es)) fs;
      Ret (Stl fs es fe un)
    else Abort (AUB "std::map without a strict weak ordering").

  (** stl.cc:135-146  Rotate; fr is copied, not recomputed. *)
  Definition rotate_facet (m : m3) (f : facet) : facet :=
    Facet (mulm (fnorm f) m) (mulm (fe0 f) m) (mulm (fe1 f) m) (mulm (fe2 f) m) (fr f).
  Definition rotate (s : stl) (m : m3) : outcome stl :=
    index (cull_facets (map (rotate_facet m) (facets s))).

  (** stl.cc:377-396: where the projections of edges v and u cross:
      Some (pu, pv), or None if they do not (in particular if parallel: then
      det is infinite and i, j are infinite or NaN). *)
  Definition cross_at (ev eu : edge) : option (v3 * v3) :=
    let dv := sub3 (e2 ev) (e1 ev) in
    let du := sub3 (e2 eu) (e1 eu) in
    let det := n1 / (x3 du * y3 dv - x3 dv * y3 du) in
    let x := x3 (e1 eu) - x3 (e1 ev) in
    let y := y3 (e1 eu) - y3 (e1 ev) in
    let j := ((- y3 du) * x + x3 du * y) * det in
    let i := ((- y3 dv) * x + x3 dv * y) * det in
    if (nz <=? i) && (i <=? n1) && (nz <=? j) && (j <=? n1)
    then Some (add3 (e1 eu) (mul3 du i), add3 (e1 ev) (mul3 dv j))
    else None.

  (** stl.cc:379-400: the entries pushed for one pair v < u. *)
  Definition cross_pair (es : list edge) (v u : nat) : list (nat * nat * v3) :=
    match nth_error es v, nth_error es u with
    | Some ev, Some eu =>
        match cross_at ev eu with
        | Some (pu, pv) =>
            (if z3 pu <=? z3 pv then [(u, v, pu)] else []) ++
            (if z3 pv <=? z3 pu then [(v, u, pv)] else [])
        | None => []
        end
    | _, _ => []
    end.
  (** stl.cc:375-402  hidden_by_list *)
  Definition hidden_by_list (es : list edge) (un : nat) : list (nat * nat * v3) :=
    flat_map (fun v => flat_map (cross_pair es v) (seq (S v) (length es - S v))) (seq 0 un).

  (** std::map<int, T> *)
  Definition imap_find {T} (k : nat) (m : list (nat * T)) : option T := smap_find Nat.ltb k m.

  (** stl.cc:403-411: distribute, with the duplicate CHECK. *)
  Definition cross_insert (un : nat) (acc : outcome (list (list (nat * v3)))) (h : nat * nat * v3)
    : outcome (list (list (nat * v3))) :=
    do! hb <- acc;
    let '(h0, h1, p) := h in
    if (un <=? h0)%nat then Ret hb
    else match nth_error hb h0 with
         | None => Abort (AUB "hidden_by_edge index")
         | Some m =>
             match imap_find h1 m with
             | Some _ => Abort (ACheck "Duplicate found")
             | None => Ret (set_nth h0 (smap_emplace Nat.ltb h1 p m) hb)
             end
         end.
  (** stl.cc:366-412  EdgeCrosses *)
  Definition edge_crosses (es : list edge) (un : nat) : outcome (list (list (nat * v3))) :=
    fold_left (cross_insert un) (hidden_by_list es un) (Ret (repeat [] un)).

  (** stl.cc:204-216, 218-231: is point p behind facet f and inside its projection? *)
  Definition behind_in (f : facet) (p : v3) : bool :=
    if dot3 p (fnorm f) <? fr f then
      let e01 := sub3 (fe1 f) (fe0 f) in
      let e12 := sub3 (fe2 f) (fe1 f) in
      let e20 := sub3 (fe0 f) (fe2 f) in
      let v0 := sub3 p (fe0 f) in
      let v1 := sub3 p (fe1 f) in
      let v2 := sub3 p (fe2 f) in
      let c0 := x3 e01 * y3 v0 - y3 e01 * x3 v0 in
      let c1 := x3 e12 * y3 v1 - y3 e12 * x3 v1 in
      let c2 := x3 e20 * y3 v2 - y3 e20 * x3 v2 in
      nge c0 nz && nge c1 nz && nge c2 nz
    else false.

  (** hidden_points[idx++] = x on the five element array of stl.cc:201. *)
  Definition push5 (pd : v3 * num) (l : list (v3 * num)) : outcome (list (v3 * num)) :=
    if (length l <? 5)%nat then Ret (l ++ [pd]) else Abort (AUB "hidden_points overflow").

  (** stl.cc:201-241: the hidden points of edge ev with respect to facet f. *)
  Definition push_cross (ev : edge) (hb : list (nat * v3)) (acc : outcome (list (v3 * num))) (e : nat)
    : outcome (list (v3 * num)) :=
    do! l <- acc;
    match imap_find e hb with
    | Some p => push5 (p, sqn3 (sub3 (e1 ev) p)) l
    | None => Ret l
    end.
  Definition hidden_points (f : facet) (fe : nat * nat * nat) (ev : edge) (hb : list (nat * v3))
    : outcome (list (v3 * num)) :=
    let '(a, b, c) := fe in
    do! l1 <- (if behind_in f (e1 ev) then push5 (e1 ev, nz) [] else Ret []);
    do! l2 <- (if behind_in f (e2 ev) then push5 (e2 ev, sqn3 (sub3 (e1 ev) (e2 ev))) l1 else Ret l1);
    fold_left (push_cross ev hb) [a; b; c] (Ret l2).

  (** stl.cc:243-253: the span of edge ev hidden by facet f, if any. *)
  Definition span_of (pts : list (v3 * num)) : outcome (option edge) :=
    if (length pts <? 2)%nat then Ret None
    else
      do! s <- std_sort nsorter (fun l r => snd l <? snd r) pts;
      match nth_error s 0, nth_error s (length pts - 1) with
      | Some (pmin, dmin), Some (pmax, dmax) =>
          if sqn3 (sub3 pmin pmax) =? nz then Ret None
          else do! _ <- check (dmin <=? dmax) "Points out of order";
               Ret (Some (Edge pmin pmax))
      | _, _ => Abort (AUB "hidden_points index")
      end.

  (** stl.cc:194-254: the span for edge v and facet fi; None for the facet's own
      edges. *)
  Definition face_hides (f : facet) (fe : nat * nat * nat) (v : nat) (ev : edge)
             (hb : list (nat * v3)) : outcome (option edge) :=
    let '(a, b, c) := fe in
    if ((v =? a) || (v =? b) || (v =? c))%nat then Ret None
    else do! pts <- hidden_points f fe ev hb; span_of pts.

  (** stl.cc:182-255 regrouped by edge: edge_hides_list[v] in facet order. The
      C++ loop has the facet outermost; each list receives the same elements in
      the same order. *)
  Fixpoint collect_some {T} (l : list (option T)) : list T :=
    match l with
    | [] => []
    | Some x :: t => x :: collect_some t
    | None :: t => collect_some t
    end.
  Definition edge_hides (s : stl) (hbe : list (list (nat * v3))) (v : nat) : outcome (list edge) :=
    match nth_error (edges s) v, nth_error hbe v with
    | Some ev, Some hb =>
        if (length (face_edge s) <? length (facets s))%nat
        then Abort (AUB "face_edge index")
        else
          do! l <- omap (fun ff => face_hides (fst ff) (snd ff) v ev hb)
                        (combine (facets s) (face_edge s));
          Ret (collect_some l)
    | _, _ => Abort (AUB "edge index")
    end.

  (** stl.cc:263-270: order spans by the distance of their start. *)
  Definition sort_hides (p : edge) (hs : list edge) : outcome (list edge) :=
    std_sort nsorter (fun l r => sqn3 (sub3 (e1 p) (e1 l)) <? sqn3 (sub3 (e1 p) (e1 r))) hs.

  (** stl.cc:430-451: one edge of GenerateLines. State: (from, d, lines). *)
  Definition gen_step (p : edge) (st : outcome (v3 * num * list line)) (hid : edge)
    : outcome (v3 * num * list line) :=
    do! '(from, d, out) <- st;
    let hid_d := sqn3 (sub3 (e1 p) (e1 hid)) in
    let out' := if d <? hid_d then out ++ [line3 from (e1 hid)] else out in
    let n := sqn3 (sub3 (e1 p) (e2 hid)) in
    let from' := if d <? n then e2 hid else from in
    let d' := if d <? n then n else d in
    do! _ <- check (hid_d <=? n) "Hidden section reversed";
    Ret (from', d', out').
  Definition gen_edge (min_line_len : num) (p : edge) (hides : list edge) : outcome (list line) :=
    do! '(from, _, out) <- fold_left (gen_step p) hides (Ret (e1 p, nz, []));
    Ret (if ngt (sqn3 (sub3 from (e2 p))) (min_line_len * min_line_len)
         then out ++ [line3 from (e2 p)] else out).

  (** stl.cc:414-454  GenerateLines.  [unseen > edges.size()] would index out
      of range. *)
  Definition generate_lines (show_hidden : bool) (un : nat) (min_line_len : num)
             (es : list edge) (hides : list (nat * list edge)) : outcome (list line) :=
    do! ls <- omap (fun i =>
                match nth_error es i with
                | None => Abort (AUB "edges index")
                | Some p =>
                    gen_edge min_line_len p
                      (if show_hidden then []
                       else match imap_find i hides with Some h => h | None => [] end)
                end) (seq 0 un);
    Ret (concat ls).

  (** stl.cc:45  kMinLineLen = 0 *)
  Definition kMinLineLen : num := nz.

  (** stl.cc:172-276  ToLines.  edge_hides_list[i] exists for every i < unseen
      after the sorting loop (265 creates missing entries). *)
  Definition to_lines (s : stl) : outcome (list line) :=
    do! hbe <- edge_crosses (edges s) (unseen s);
    do! hides <- omap (fun v => match nth_error (edges s) v with
                                | None => Abort (AUB "edge index")
                                | Some p => do! hs <- edge_hides s hbe v;
                                            do! hs' <- sort_hides p hs;
                                            Ret (v, hs')
                                end) (seq 0 (unseen s));
    generate_lines false (unseen s) kMinLineLen (edges s) hides.
End Stl.
