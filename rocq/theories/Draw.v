(** Draw.v - model of stl-to-ps.cc: loading models and drawing pages.

    A Meta* is modelled by the index of the Meta in its list, because
    GetRotated rotates points in place: the document is part of the state, and
    the visit functions return the changed parts of it.  AddLines, AddArcs and
    AddText CHECK that current_page is set; GeneratePages always sets it, and
    in the model the page is a field of the state. *)
From Verif Require Import Base Num Geo Stl StlRead Env Ast Ps.

Section Draw.
  Context {A : Arith} {E : Env}.
  Local Open Scope num_scope.

  (** stl-to-ps-impl.h:89-99  the members of DrawToPage, plus what was printed
      on stderr.  proj.scale is a float. *)
  Record vst := Vst {
    v_points : point_set;
    v_rot : m3;
    v_scale : num;
    v_d : v2;
    v_page : opage;
    v_log : list diag
  }.
  Definition vst_init : vst := Vst [] zerom nz (V2 nz nz) opage_empty [].
  Definition say (d : diag) (s : vst) : vst :=
    Vst (v_points s) (v_rot s) (v_scale s) (v_d s) (v_page s) (v_log s ++ [d]).
  Definition err (l : loc) (m : bytes) (s : vst) : vst := say (DSym l m) s.
  Definition log_all (ds : list diag) (s : vst) : vst :=
    Vst (v_points s) (v_rot s) (v_scale s) (v_d s) (v_page s) (v_log s ++ ds).
  Definition set_page (p : opage) (s : vst) : vst :=
    Vst (v_points s) (v_rot s) (v_scale s) (v_d s) p (v_log s).

  (** std::map<std::string, Meta*> *)
  Definition seen := list (bytes * nat).
  (** stl-to-ps.cc:58-64  Take *)
  Definition take (name : string) (m : seen) : option nat * seen :=
    match smap_find bytes_ltb (B name) m with
    | None => (None, m)
    | Some k => (Some k, smap_erase bytes_ltb (B name) m)
    end.
  (** stl-to-ps.cc:66-76  Flatten *)
  Definition flatten_step (what : bytes) (acc : bool * seen * list diag) (im : nat * meta)
    : bool * seen * list diag :=
    let '(ok, m, lg) := acc in
    let '(i, x) := im in
    match smap_find bytes_ltb (m_name x) m with
    | Some _ => (false, m, lg ++ [DSym (m_loc x) (B "Duplicate " ++ what ++ B " property '" ++ m_name x ++ B "'")])
    | None => (ok, smap_emplace bytes_ltb (m_name x) i m, lg)
    end.
  Definition flatten (what : string) (inp : list meta) : bool * seen * list diag :=
    fold_left (flatten_step (B what)) (enum inp) (true, [], []).

  (** for (const auto& p : seen) SYM_ERROR( *p.second) << p.second->name; *)
  Definition list_unknown (ml : list meta) (m : seen) : list diag :=
    flat_map (fun kv => match nth_error ml (snd kv) with
                        | Some x => [DSym (m_loc x) (m_name x)] | None => [] end) m.
  Definition unexpected (what : string) (l : loc) (ml : list meta) (m : seen) (s : vst) : vst :=
    log_all (DSym l (B "Unexepcted properties for " ++ B what) :: list_unknown ml m) s.

  (** stl-to-ps.cc:831-868  AddLines, AddArcs, AddText *)
  Definition place (s : vst) (p : v2) : v2 := add2 (mul2 p (v_scale s)) (v_d s).
  Definition add_lines (ls : list line) (s : vst) : vst :=
    let p := v_page s in
    set_page (OPage (o_lines p ++ map (fun l => Line (place s (lo l)) (place s (lt_ l))) ls)
                    (o_arcs p) (o_text p)) s.
  Definition add_arcs (l : list arc) (s : vst) : vst :=
    let p := v_page s in
    set_page (OPage (o_lines p)
                    (o_arcs p ++ map (fun a => Arc (place s (ac a)) (ar a * v_scale s)
                                                   (astart a) (aend a)) l) (o_text p)) s.
  Definition add_text (l : list text) (s : vst) : vst :=
    let p := v_page s in
    set_page (OPage (o_lines p) (o_arcs p)
                    (o_text p ++ map (fun t => Text (place s (t_at t)) (t_str t) (t_center t) (t_raw t)) l)) s.

  (** stl-to-ps.cc:305-319  GetRotated on the i-th Meta of ml.  The result
      vector stays zero when it fails. *)
  Definition get_rotated (i : nat) (w : vst * list meta) : outcome (vst * list meta * bool * v3) :=
    let '(s, ml) := w in
    do! _ <- check (negb (eqm (v_rot s) zerom)) "Null rotation";
    match nth_error ml i with
    | None => Abort (AUB "dangling Meta*")
    | Some m =>
        match as_point m with
        | Some p =>
            let p' := point_rotate (v_rot s) p in
            let ml' := set_nth i (Meta (m_name m) (MPoint p') (m_loc m)) ml in
            let '(lg, r) := invoke (v_points s) p' in
            match r with
            | Some v => Ret (log_all lg s, ml', true, v)
            | None => Ret (log_all lg s, ml', false, zero3)
            end
        | None =>
            Ret (err (m_loc m) (B "Expected point for '" ++ m_name m ++ B "' got " ++ type_name (mkind (m_val m))) s,
                 ml, false, zero3)
        end
    end.

  (** The location of the i-th Meta. *)
  Definition mloc (ml : list meta) (i : nat) : loc :=
    match nth_error ml i with Some m => m_loc m | None => Loc [] 0 end.

  (** The fmt argument: stl-to-ps.cc:396-410, 484-497, 584-597, 749-762.
      Some f: the format to use; None: error already reported. *)
  Definition get_fmt (what : string) (dflt : string) (p_fmt : option nat) (w : vst * list meta)
    : vst * option bytes :=
    let '(s, ml) := w in
    match p_fmt with
    | None => (s, Some (B dflt))
    | Some i =>
        match nth_error ml i with
        | None => (s, None)
        | Some m =>
            match as_str m with
            | None => (err (m_loc m) (B "fmt argument for " ++ B what ++ B " is the wrong type") s, None)
            | Some f =>
                if pf_ok f then (s, Some f)
                else (err (m_loc m) (B "Invalid fmt argument for " ++ B what ++ B ": must be a '%f' type") s, None)
            end
        end
    end.

  (** Report a missing property; true if present. *)
  Definition need (l : loc) (p : option nat) (msg : string) (s : vst) : vst * bool :=
    match p with Some _ => (s, true) | None => (err l (B msg) s, false) end.

  Definition is_some {T} (o : option T) : bool := match o with Some _ => true | None => false end.

  (** A visit returns the new state, the (rotated) meta list and the result. *)
  Definition vret := outcome (vst * list meta * bool).

  Definition n2 : num := of_Z 2.

  (** stl-to-ps.cc:414-460: drawing an angle from its evaluated arguments. *)
  Definition draw_angle (l : loc) (fmt : bytes) (at_ apex fd fp td tp : v3) (s : vst) : vst * bool :=
    let c := cross3 td fd in
    if z3 c =? nz then (err l (B "Degenerate angle provided.") s, false)
    else
      let sw := ngt (z3 c) nz in
      let from_dir := if sw then td else fd in
      let to_dir := if sw then fd else td in
      let from_point := if sw then tp else fp in
      let to_point := if sw then fp else tp in
      let len := norm3 (sub3 at_ apex) in
      let gap := to_f32 (n2 / v_scale s) in
      let fa := div3 (normalized3 from_dir) (v_scale s) in
      let ta := div3 (normalized3 to_dir) (v_scale s) in
      let dot := dot3 from_dir to_dir in
      let fb := div3 (normalized3 (sub3 to_dir (div3 (mul3 from_dir dot) (norm3 from_dir)))) (v_scale s) in
      let tb := div3 (normalized3 (sub3 from_dir (div3 (mul3 to_dir dot) (norm3 to_dir)))) (v_scale s) in
      let fpt := add3 apex (mul3 from_dir len) in
      let tpt := add3 apex (mul3 to_dir len) in
      let s1 := add_lines
        [ line3 (add3 from_point (mul3 from_dir gap)) (add3 apex (mul3 from_dir (len + gap * n2)));
          line3 (add3 to_point (mul3 to_dir gap)) (add3 apex (mul3 to_dir (len + gap * n2)));
          line3 fpt (add3 (add3 fpt (mul3 fa (of_Z 2))) (mul3 fb (of_Z 6)));
          line3 fpt (add3 (add3 fpt (mul3 fa (of_Z (-2)))) (mul3 fb (of_Z 6)));
          line3 tpt (add3 (add3 tpt (mul3 ta (of_Z 2))) (mul3 tb (of_Z 6)));
          line3 tpt (add3 (add3 tpt (mul3 ta (of_Z (-2)))) (mul3 tb (of_Z 6))) ] s in
      let s2 := add_arcs [arc3 apex len from_dir to_dir] s1 in
      let ang := nacos (dot3 from_dir (normalized3 to_dir)) * of_Z 180 / PI in
      (add_text [Text (xy at_) (pf_format fmt ang ++ B " deg") true false] s2, true).

  (** stl-to-ps.cc:323-461  operator()(const Angle&) *)
  Definition visit_angle (d : dim) (s0 : vst) : vret :=
    let ml := d_meta d in
    let l := d_loc d in
    let '(ok0, m0, lg) := flatten "angle" ml in
    let s := log_all lg s0 in
    let '(p_at, m1) := take "at" m0 in
    let '(p_apex, m2) := take "apex" m1 in
    let '(p_from_dir, m3_) := take "from_dir" m2 in
    let '(p_from_point, m4) := take "from_point" m3_ in
    let '(p_to_dir, m5) := take "to_dir" m4 in
    let '(p_to_point, m6) := take "to_point" m5 in
    let '(p_fmt, m7) := take "fmt" m6 in
    match m7 with
    | _ :: _ => Ret (unexpected "angle" l ml m7 s, ml, false)
    | [] =>
        let '(s, k1) := need l p_at "Missing 'at'" s in
        let '(s, k2) := need l p_apex "Missing 'apex'" s in
        let '(s, k3) := if is_some p_from_dir then (s, true)
                        else need l p_from_point "Missing 'from_{dir,point}'" s in
        let '(s, k4) := if is_some p_to_dir then (s, true)
                        else need l p_to_point "Missing 'to_{dir,point}'" s in
        if negb (ok0 && k1 && k2 && k3 && k4) then Ret (s, ml, false)
        else
          let both_f := is_some p_from_dir && is_some p_from_point in
          let both_t := is_some p_to_dir && is_some p_to_point in
          let s := match p_from_dir with
                   | Some i => if both_f then err (mloc ml i) (B "Both 'from_{dir,point}' provided") s else s
                   | None => s end in
          let s := match p_to_dir with
                   | Some i => if both_t then err (mloc ml i) (B "Both 'to_{dir,point}' provided") s else s
                   | None => s end in
          if both_f || both_t then Ret (s, ml, false)
          else
            match p_at, p_apex with
            | Some i_at, Some i_apex =>
                do! '(s, ml, r1, at_) <- get_rotated i_at (s, ml);
                do! '(s, ml, r2, apex) <- get_rotated i_apex (s, ml);
                do! '(s, ml, r3, from_dir, from_point) <-
                  match p_from_dir, p_from_point with
                  | Some i, _ =>
                      do! '(s, ml, r, v) <- get_rotated i (s, ml);
                      Ret (s, ml, r, normalized3 v, apex)
                  | None, Some i =>
                      do! '(s, ml, r, v) <- get_rotated i (s, ml);
                      Ret (s, ml, r, normalized3 (sub3 v apex), v)
                  | None, None => Abort (AUB "null Meta*")
                  end;
                do! '(s, ml, r4, to_dir, to_point) <-
                  match p_to_dir, p_to_point with
                  | Some i, _ =>
                      do! '(s, ml, r, v) <- get_rotated i (s, ml);
                      Ret (s, ml, r, normalized3 v, apex)
                  | None, Some i =>
                      do! '(s, ml, r, v) <- get_rotated i (s, ml);
                      Ret (s, ml, r, normalized3 (sub3 v apex), v)
                  | None, None => Abort (AUB "null Meta*")
                  end;
                let '(s, fmt) := get_fmt "angle" "%.1f" p_fmt (s, ml) in
                match fmt with
                | None => Ret (s, ml, false)
                | Some f =>
                    if negb (r1 && r2 && r3 && r4) then Ret (s, ml, false)
                    else
                      let '(s, ok) := draw_angle l f at_ apex from_dir from_point to_dir to_point s in
                      Ret (s, ml, ok)
                end
            | _, _ => Abort (AUB "null Meta*")
            end
    end.

  (** stl-to-ps.cc:232-303  GetCenter: Some (at, dir, center, rad) or None.
      p_dir is never null at line 263, so the else branch there is dead. *)
  Definition get_center (l : loc) (m0 : seen) (w : vst * list meta)
    : outcome (vst * list meta * seen * option (v2 * v2 * v2 * num)) :=
    let '(s, ml) := w in
    let '(p_at, m1) := take "at" m0 in
    let '(p_dir, m2) := take "dir" m1 in
    let '(p_center, m3_) := take "center" m2 in
    let '(s, k1) := need l p_at "Missing 'at'" s in
    let '(s, k2) := need l p_dir "Missing 'dir'" s in
    let '(s, k3) := need l p_center "Missing 'center'" s in
    match p_at, p_dir, p_center with
    | Some i_at, Some i_dir, Some i_center =>
        if (length (v_points s) <? 3)%nat
        then Ret (err l (B "Not enought points") s, ml, m3_, None)
        else
          do! '(s, ml, r1, at_) <- get_rotated i_at (s, ml);
          do! '(s, ml, r2, target) <- get_rotated i_center (s, ml);
          do! '(s, ml, r3, dir) <- get_rotated i_dir (s, ml);
          if negb (r1 && r2 && r3) then Ret (s, ml, m3_, None)
          else
            match fit_circle (v_points s) (xy target) with
            | None => Ret (err l (B "Failed to find center") s, ml, m3_, None)
            | Some (c, rad) => Ret (s, ml, m3_, Some (xy at_, xy dir, c, rad))
            end
    | _, _, _ => Ret (s, ml, m3_, None)
    end.

  (** -6 * dir + 2 * cross and the like *)
  Definition comb2 (a : Z) (u : v2) (b : Z) (v : v2) : v2 :=
    add2 (mul2 u (of_Z a)) (mul2 v (of_Z b)).

  (** kFontSize * 0.3 *)
  Definition char_half : num := of_Z kFontSize * of_dec 3 (-1).

  (** stl-to-ps.cc:499-531 *)
  Definition draw_dia (fmt : bytes) (center at_ dir0 : v2) (r : num) (s : vst) : vst :=
    let dir := normalized2 dir0 in
    let a := add2 center (mul2 dir r) in
    let b := sub2 center (mul2 dir r) in
    let direct := sub2 at_ center in
    let len := nmin (x2 direct / x2 dir) (y2 direct / y2 dir) in
    let s1 :=
      if ngt len n1 then
        let c := add2 center (mul2 dir len) in add_lines [Line b c; Line c at_] s
      else add_lines [Line b a; Line a at_] s in
    let dr := div2 dir (v_scale s) in
    let cr := V2 (- y2 dr) (x2 dr) in
    let s2 := add_lines
      [ Line a (add2 a (comb2 (-6) dr 2 cr)); Line a (add2 a (comb2 (-6) dr (-2) cr));
        Line b (add2 b (comb2 6 dr 2 cr)); Line b (add2 b (comb2 6 dr (-2) cr)) ] s1 in
    let str := B "\351" ++ pf_format fmt (r * n2) in
    add_text [Text (V2 (x2 at_ + char_half * of_Z (Z.of_nat (length str) - 2) / v_scale s) (y2 at_))
                   str true true] s2.

  (** stl-to-ps.cc:764-792 *)
  Definition draw_rad (fmt : bytes) (center at_ dir0 : v2) (r : num) (s : vst) : vst :=
    let dir := normalized2 dir0 in
    let a := add2 center (mul2 dir r) in
    let direct := sub2 at_ center in
    let len := nmin (x2 direct / x2 dir) (y2 direct / y2 dir) in
    let s1 :=
      if ngt len n1 then
        let b := add2 center (mul2 dir len) in add_lines [Line center b; Line b at_] s
      else add_lines [Line center a; Line a at_] s in
    let dr := div2 dir (v_scale s) in
    let cr := V2 (- y2 dr) (x2 dr) in
    let s2 := add_lines
      [ Line a (add2 a (comb2 (-6) dr 2 cr)); Line a (add2 a (comb2 (-6) dr (-2) cr)) ] s1 in
    let str := B "R" ++ pf_format fmt r in
    add_text [Text (V2 (x2 at_ + char_half * of_Z (Z.of_nat (length str) + 2) / v_scale s) (y2 at_))
                   str true false] s2.

  (** stl-to-ps.cc:463-534, 728-795  operator()(const Dia&), operator()(const Rad&)
      with RenderDia / RenderRad, which differ only in name and drawing. *)
  Definition visit_circ (what : string)
             (draw : bytes -> v2 -> v2 -> v2 -> num -> vst -> vst) (d : dim) (s0 : vst) : vret :=
    let ml := d_meta d in
    let l := d_loc d in
    let '(ok0, m0, lg) := flatten what ml in
    let s := log_all lg s0 in
    if negb ok0 then Ret (s, ml, false)
    else
      do! '(s, ml, m, gc) <- get_center l m0 (s, ml);
      match gc with
      | None => Ret (s, ml, false)
      | Some (at_, dir, center, r) =>
          let '(p_fmt, m') := take "fmt" m in
          match m' with
          | _ :: _ => Ret (unexpected what l ml m' s, ml, false)
          | [] =>
              let '(s, fmt) := get_fmt what "%.3f" p_fmt (s, ml) in
              match fmt with
              | None => Ret (s, ml, false)
              | Some f => Ret (draw f center at_ dir r s, ml, true)
              end
          end
      end.
  Definition visit_dia : dim -> vst -> vret := visit_circ "dia" draw_dia.
  Definition visit_rad : dim -> vst -> vret := visit_circ "rad" draw_rad.

  (** stl-to-ps.cc:600-658 *)
  Definition draw_dim (fmt : bytes) (at_ dir from to : v3) (s : vst) : vst :=
    let from_at := sub3 from at_ in
    let to_at := sub3 to at_ in
    let arrow_from := add3 at_ (mul3 dir (dot3 dir from_at)) in
    let arrow_to := add3 at_ (mul3 dir (dot3 dir to_at)) in
    let len := sub3 arrow_to arrow_from in
    let dim_value := norm3 len in
    let str := pf_format fmt dim_value in
    let s1 := add_text [Text (xy at_) str true false] s in
    let a := div3 (normalized3 (V3 (x3 len) (y3 len) nz)) (v_scale s) in
    let b := V3 (- y3 a) (x3 a) nz in
    let from_sign := if ngt (dot3 from_at b) nz then n1 else of_Z (-1) in
    let to_sign := if ngt (dot3 to_at b) nz then n1 else of_Z (-1) in
    let width := char_half * of_Z (Z.of_nat (length str)) + n1 in
    let height := of_Z kFontSize * of_dec 333 (-3) + n1 in
    let gap := nmin (nabs (width / x3 a)) (nabs (height / y3 a)) / v_scale s in
    let inside := gap * n2 <? dim_value * v_scale s in
    let s2 :=
      if inside
      then add_lines [line3 arrow_from (sub3 at_ (mul3 a gap)); line3 (add3 at_ (mul3 a gap)) arrow_to] s1
      else add_lines [line3 arrow_from (sub3 arrow_from (mul3 a (of_Z 10)));
                      line3 arrow_to (add3 arrow_to (mul3 a (of_Z 10)))] s1 in
    let a' := if inside then a else neg3 a in
    let comb (x y : Z) := add3 (mul3 a' (of_Z x)) (mul3 b (of_Z y)) in
    add_lines
      [ line3 (sub3 arrow_from (mul3 (mul3 b (of_Z 4)) from_sign)) (sub3 from (mul3 (mul3 b (of_Z 2)) from_sign));
        line3 (sub3 arrow_to (mul3 (mul3 b (of_Z 4)) to_sign)) (sub3 to (mul3 (mul3 b (of_Z 2)) to_sign));
        line3 arrow_from (add3 arrow_from (comb 6 2)%Z);
        line3 arrow_from (add3 arrow_from (comb 6 (-2))%Z);
        line3 arrow_to (add3 arrow_to (comb (-6) 2)%Z);
        line3 arrow_to (add3 arrow_to (comb (-6) (-2))%Z) ] s2.

  (** stl-to-ps.cc:536-659  operator()(const Dim&) *)
  Definition visit_dim (d : dim) (s0 : vst) : vret :=
    let ml := d_meta d in
    let l := d_loc d in
    let '(ok0, m0, lg) := flatten "dim" ml in
    let s := log_all lg s0 in
    let '(p_at, m1) := take "at" m0 in
    let '(p_dir, m2) := take "dir" m1 in
    let '(p_from, m3_) := take "from" m2 in
    let '(p_to, m4) := take "to" m3_ in
    let '(p_fmt, m5) := take "fmt" m4 in
    match m5 with
    | _ :: _ => Ret (unexpected "dim" l ml m5 s, ml, false)
    | [] =>
        let '(s, k1) := need l p_at "Missing 'at'" s in
        let '(s, k2) := need l p_dir "Missing 'dir'" s in
        let '(s, k3) := need l p_from "Missing 'from'" s in
        let '(s, k4) := need l p_to "Missing 'to'" s in
        if negb (ok0 && k1 && k2 && k3 && k4) then Ret (s, ml, false)
        else
          match p_at, p_dir, p_from, p_to with
          | Some i_at, Some i_dir, Some i_from, Some i_to =>
              do! '(s, ml, r1, at_) <- get_rotated i_at (s, ml);
              do! '(s, ml, r2, dir) <- get_rotated i_dir (s, ml);
              do! '(s, ml, r3, from) <- get_rotated i_from (s, ml);
              do! '(s, ml, r4, to) <- get_rotated i_to (s, ml);
              if eq3 dir zero3
              then Ret (err (mloc ml i_dir) (B "Dimention's 'dir' must not be the zero vector") s, ml, false)
              else
                let '(s, fmt) := get_fmt "dim" "%.3f" p_fmt (s, ml) in
                match fmt with
                | None => Ret (s, ml, false)
                | Some f =>
                    if negb (r1 && r2 && r3 && r4) then Ret (s, ml, false)
                    else Ret (draw_dim f at_ (normalized3 dir) from to s, ml, true)
                end
          | _, _, _, _ => Abort (AUB "null Meta*")
          end
    end.

  Definition visit_base_dim (d : dim) (s : vst) : outcome (vst * dim * bool) :=
    do! '(s', ml, ok) <-
      match d_kind d with
      | KAngle => visit_angle d s
      | KDia => visit_dia d s
      | KDim => visit_dim d s
      | KRad => visit_rad d s
      end;
    Ret (s', Dim (d_kind d) (d_loc d) ml, ok).

  (** stl-to-ps.cc:228  the loop of AddDims: every dimension is visited. *)
  Fixpoint visit_dims (ds : list dim) (s : vst) : outcome (vst * list dim * bool) :=
    match ds with
    | [] => Ret (s, [], true)
    | d :: t =>
        do! '(s1, d', ok1) <- visit_base_dim d s;
        do! '(s2, t', ok2) <- visit_dims t s1;
        Ret (s2, d' :: t', ok1 && ok2)
    end.

  (** stl-to-ps.cc:221-230  AddDims *)
  Definition add_dims (file : stl) (ds : list dim) (rot : m3) (s : vst)
    : outcome (vst * list dim * bool) :=
    if strict_weak order (flat_map fverts (facets file))
    then visit_dims ds (Vst (points file) rot (v_scale s) (v_d s) (v_page s) (v_log s))
    else Abort (AUB "std::set without a strict weak ordering").

  (** The models that were loaded: std::map<std::string, unique_ptr<STLFile>>. *)
  Definition stl_map := list (bytes * option stl).

  (** Offsets of the page centre: RowVector2d{792 / 2, 612 / 2} *)
  Definition page_mid : v2 := V2 (of_Z 396) (of_Z 306).

  (** stl-to-ps.cc:681-696  the view of a drawing *)
  Definition get_view (ml : list meta) (p_view : option nat) (s : vst) : vst * option m3 :=
    match p_view with
    | None => (s, Some mZP)
    | Some i =>
        match nth_error ml i with
        | None => (s, None)
        | Some m =>
            match as_loc m, as_str m with
            | Some a, _ => (s, Some (matrix_by_ang a))
            | None, Some n =>
                match matrix_by_name n with
                | Some r => (s, Some r)
                | None => (err (m_loc m) (B "Unknown view name: '" ++ n ++ B "'") s, None)
                end
            | None, None =>
                (err (m_loc m) (B "Unexpect view type: " ++ type_name (mkind (m_val m))) s, None)
            end
        end
    end.

  (** stl-to-ps.cc:666-672  the scale of a drawing *)
  Definition get_scale (ml : list meta) (p_scale : option nat) (s : vst) : vst * option (Z * Z) :=
    match p_scale with
    | None => (s, Some (1, 1)%Z)
    | Some i =>
        match nth_error ml i with
        | None => (s, None)
        | Some m =>
            match as_scale m with
            | Some ab => (s, Some ab)
            | None => (err (m_loc m) (B "Wrong type for scale") s, None)
            end
        end
    end.

  (** CHECK(at->As(&loc)) (stl-to-ps.cc:700, 807) *)
  Definition get_at (ml : list meta) (i : nat) : outcome v2 :=
    match nth_error ml i with
    | None => Abort (AUB "dangling Meta*")
    | Some m => match as_loc m with Some v => Ret v | None => Abort (ACheck "@ is not a location") end
    end.

  (** stl-to-ps.cc:673 *)
  Definition proj_scale (ab : Z * Z) : num :=
    to_f32 (of_Z 72 * of_Z (fst ab) / of_Z (snd ab)).

  (** stl-to-ps.cc:661-726  operator()(const Draw&) *)
  Definition visit_draw (files : stl_map) (l : loc) (name : bytes) (ml : list meta) (dims : list dim)
             (s0 : vst) : outcome (vst * list dim * bool) :=
    let '(ok0, m0, lg) := flatten "draw" ml in
    let s := log_all lg s0 in
    if negb ok0 then Ret (s, dims, false)
    else
      let '(p_scale, m1) := take "scale" m0 in
      let '(s, sc) := get_scale ml p_scale s in
      match sc with
      | None => Ret (s, dims, false)
      | Some ab =>
          let s := Vst (v_points s) (v_rot s) (proj_scale ab) (v_d s) (v_page s) (v_log s) in
          match smap_find bytes_ltb name files with
          | None => Ret (err l (B "Unknown model '" ++ name ++ B "'") s, dims, false)
          | Some fo =>
              let '(p_view, m2) := take "view" m1 in
              let '(s, vw) := get_view ml p_view s in
              match vw with
              | None => Ret (s, dims, false)
              | Some rotation =>
                  let '(p_loc, m3_) := take "@" m2 in
                  do! loc <- match p_loc with
                             | None => Ret (V2 nz nz)
                             | Some i => do! v <- get_at ml i;
                                         Ret (add2 (mul2 v (of_Z 72)) page_mid)
                             end;
                  match fo with
                  | None => Abort (AUB "null STLFile")
                  | Some file =>
                      do! proj0 <- rotate file rotation;
                      let proj := cull_back_face proj0 in
                      let lim := limits proj in
                      let d := sub2 loc (mul2 (div2 (add2 (lo lim) (lt_ lim)) n2) (v_scale s)) in
                      let s := Vst (v_points s) (v_rot s) (v_scale s) d (v_page s) (v_log s) in
                      do! ls <- to_lines proj;
                      let s := add_lines ls s in
                      do! '(s, dims', ok) <- add_dims proj dims rotation s;
                      if negb ok then Ret (s, dims', false)
                      else
                        match m3_ with
                        | _ :: _ => Ret (unexpected "draw" l ml m3_ s, dims', false)
                        | [] => Ret (s, dims', true)
                        end
                  end
              end
          end
      end.

  (** stl-to-ps.cc:812-818: one text line per non-empty line, 12 points apart *)
  Fixpoint text_lines (at_ : v2) (ls : list bytes) : list text :=
    match ls with
    | [] => []
    | w :: t =>
        (match w with [] => [] | _ => [Text at_ w false false] end)
          ++ text_lines (V2 (x2 at_) (y2 at_ - of_Z 12)) t
    end.
  (** stl-to-ps.cc:797-827  operator()(const Text&) *)
  Definition visit_text (l : loc) (txt : bytes) (ml : list meta) (s0 : vst) : outcome (vst * bool) :=
    let '(ok0, m0, lg) := flatten "draw" ml in
    let s := log_all lg s0 in
    if negb ok0 then Ret (s, false)
    else
      let '(p_loc, m1) := take "@" m0 in
      do! at0 <- match p_loc with
                 | None => Ret (V2 nz nz)
                 | Some i => do! v <- get_at ml i; Ret (add2 (V2 nz nz) (mul2 v (of_Z 72)))
                 end;
      let at_ := add2 at0 page_mid in
      let p := v_page s in
      let s := set_page (OPage (o_lines p) (o_arcs p) (o_text p ++ text_lines at_ (split_on LF txt))) s in
      match m1 with
      | _ :: _ => Ret (unexpected "text" l ml m1 s, false)
      | [] => Ret (s, true)
      end.

  Definition visit_drawable (files : stl_map) (d : drawable) (s : vst) : outcome (vst * drawable * bool) :=
    match d with
    | DDraw l n ml ds =>
        do! '(s', ds', ok) <- visit_draw files l n ml ds s;
        Ret (s', DDraw l n ml ds', ok)
    | DText l t ml => do! '(s', ok) <- visit_text l t ml s; Ret (s', d, ok)
    end.
  Fixpoint visit_drawables (files : stl_map) (ds : list drawable) (s : vst)
    : outcome (vst * list drawable * bool) :=
    match ds with
    | [] => Ret (s, [], true)
    | d :: t =>
        do! '(s1, d', ok1) <- visit_drawable files d s;
        do! '(s2, t', ok2) <- visit_drawables files t s1;
        Ret (s2, d' :: t', ok1 && ok2)
    end.

  (** stl-to-ps.cc:175-205: one page; n is the number of this page. *)
  Definition gen_page (files : stl_map) (n : nat) (pg : page) (s0 : vst) : outcome (vst * page * bool) :=
    let ml := pg_meta pg in
    let '(ok0, m0, lg) := flatten "page" ml in
    let s := set_page opage_empty (log_all lg s0) in
    let '(p_name, m1) := take "name" m0 in
    let '(s, name, ok1) :=
      match p_name with
      | None => (s, [], true)
      | Some i =>
          match nth_error ml i with
          | None => (s, [], false)
          | Some m =>
              match as_str m with
              | Some nm => (s, nm, true)
              | None => (err (m_loc m) (B "Expected document name to be a string, got '"
                                          ++ type_name (mkind (m_val m)) ++ B "'") s, [], false)
              end
          end
      end in
    do! '(s, ds, ok2) <- visit_drawables files (pg_draws pg) s;
    let s := set_page (add_header (v_page s) name) s in
    let '(s, ok3) :=
      match m1 with
      | [] => (s, true)
      | _ :: _ =>
          (log_all (DSym (pg_loc pg) (B "Unexepcted properties for page " ++ dec_of_nat n)
                      :: list_unknown ml m1) s, false)
      end in
    Ret (s, Page (pg_loc pg) ml ds, ok0 && ok1 && ok2 && ok3).

  (** stl-to-ps.cc:170-207  GeneratePages: one visitor for all pages. *)
  Fixpoint gen_pages (files : stl_map) (n : nat) (pgs : list page) (s : vst)
    : outcome (vst * list page * list opage * bool) :=
    match pgs with
    | [] => Ret (s, [], [], true)
    | pg :: t =>
        do! '(s1, pg', ok1) <- gen_page files n pg s;
        do! '(s2, t', os, ok2) <- gen_pages files (S n) t s1;
        Ret (s2, pg' :: t', v_page s1 :: os, ok1 && ok2)
    end.
  (** Result: pages drawn, document afterwards, diagnostics, return value. *)
  Definition generate_pages (files : stl_map) (d : document)
    : outcome (list opage * document * list diag * bool) :=
    do! '(s, pgs, os, ok) <- gen_pages files 1 (doc_pages d) vst_init;
    Ret (os, Doc (doc_models d) pgs, v_log s, ok).

  (** stl-to-ps.cc:135-140  the search path *)
  Definition load_paths : list bytes := B "." :: split_on "," flag_load_path.
  (** stl-to-ps.cc:143 file.find('/') == 0 *)
  Definition absolute (f : bytes) : bool :=
    match f with c :: _ => byte_eqb c "/" | [] => false end.
  (** The paths tried, in order (stl-to-ps.cc:143-150). *)
  Definition candidates (f : bytes) : list bytes :=
    if absolute f then [f] else map (fun p => p ++ B "/" ++ f) load_paths.
  (** The first candidate that opens. *)
  Fixpoint first_open (fs : files) (ps : list bytes) : option bytes :=
    match ps with
    | [] => None
    | p :: t => match fs p with Some c => Some c | None => first_open fs t end
    end.

  (** stl-to-ps.cc:120-168  LoadFiles *)
  Definition load_one (fs : files) (m : model) (st : stl_map) : outcome (stl_map * list diag * bool) :=
    match smap_find bytes_ltb (mo_name m) st with
    | Some _ => Ret (st, [DSym (mo_loc m) (B "Modele '" ++ mo_name m ++ B "' was already loaded")], false)
    | None =>
        match first_open fs (candidates (mo_source m)) with
        | None =>
            Ret (smap_emplace bytes_ltb (mo_name m) None st,
                 [DSym (mo_loc m) (B "Failed to read model " ++ mo_name m ++ B " from '" ++ mo_source m ++ B "'")],
                 false)
        | Some c =>
            do! '(r, lg) <- stl_make c;
            match r with
            | None =>
                Ret (smap_emplace bytes_ltb (mo_name m) None st,
                     lg ++ [DSym (mo_loc m) (B "Failed to parse " ++ mo_name m ++ B " '" ++ mo_source m ++ B "'")],
                     false)
            | Some f => Ret (smap_emplace bytes_ltb (mo_name m) (Some f) st, lg, true)
            end
        end
    end.
  Fixpoint load_files (fs : files) (ms : list model) (st : stl_map) : outcome (stl_map * list diag * bool) :=
    match ms with
    | [] => Ret (st, [], true)
    | m :: t =>
        do! '(st1, lg1, ok1) <- load_one fs m st;
        do! '(st2, lg2, ok2) <- load_files fs t st1;
        Ret (st2, lg1 ++ lg2, ok1 && ok2)
    end.
End Draw.
