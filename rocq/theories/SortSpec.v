(** SortSpec.v - line generation with an implementation of std::sort other than
    the one of the arithmetic at hand.  Copies of the functions of Stl.v that
    sort (stl.cc:194-276), with the implementation as an argument; with the
    implementation of the arithmetic they are the functions of Stl.v
    ([by_model] in P_Sort.v, by computation). *)
From Verif Require Import Base Num Geo Stl.

Local Unset Implicit Arguments.
Section By.
  Context {A : Arith} (srt : sorter).
  Local Open Scope num_scope.
  (** stl.cc:243-253 *)
  Definition span_by (pts : list (v3 * num)) : outcome (option edge) :=
    if (length pts <? 2)%nat then Ret None
    else
      do! s <- std_sort srt (fun l r => snd l <? snd r) pts;
      match nth_error s 0, nth_error s (length pts - 1) with
      | Some (pmin, dmin), Some (pmax, dmax) =>
          if sqn3 (sub3 pmin pmax) =? nz then Ret None
          else do! _ <- check (dmin <=? dmax) "Points out of order";
               Ret (Some (Edge pmin pmax))
      | _, _ => Abort (AUB "hidden_points index")
      end.
  (** stl.cc:194-254 *)
  Definition face_hides_by (f : facet) (fe : nat * nat * nat) (v : nat) (ev : edge) (hb : list (nat * v3)) : outcome (option edge) :=
    let '(a, b, c) := fe in
    if ((v =? a) || (v =? b) || (v =? c))%nat then Ret None
    else do! pts <- hidden_points f fe ev hb; span_by pts.
  (** stl.cc:182-255 *)
  Definition edge_hides_by (s : stl) (hbe : list (list (nat * v3))) (v : nat) : outcome (list edge) :=
    match nth_error (edges s) v, nth_error hbe v with
    | Some ev, Some hb =>
        if (length (face_edge s) <? length (facets s))%nat
        then Abort (AUB "face_edge index")
        else
          do! l <- omap (fun ff => face_hides_by (fst ff) (snd ff) v ev hb) (combine (facets s) (face_edge s));
          Ret (collect_some l)
    | _, _ => Abort (AUB "edge index")
    end.
  (** stl.cc:263-270 *)
  Definition sort_hides_by (p : edge) (hs : list edge) : outcome (list edge) :=
    std_sort srt (fun l r => sqn3 (sub3 (e1 p) (e1 l)) <? sqn3 (sub3 (e1 p) (e1 r))) hs.
  (** stl.cc:172-276 *)
  Definition to_lines_by (s : stl) : outcome (list line) :=
    do! hbe <- edge_crosses (edges s) (unseen s);
    do! hides <- omap (fun v => match nth_error (edges s) v with
                                | None => Abort (AUB "edge index")
                                | Some p => do! hs <- edge_hides_by s hbe v;
                                            do! hs' <- sort_hides_by p hs;
                                            Ret (v, hs')
                                end) (seq 0 (unseen s));
    generate_lines false (unseen s) kMinLineLen (edges s) hides.
End By.
