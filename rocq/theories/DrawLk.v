(** DrawLk.v - the lookups of stl-to-ps.cc in containers that are ordered by coordinates.

    PointFunc::Near looks up its argument in a std::set of points (ast.cc:59) and Closest looks up
    and inserts distances in a std::multimap (ast.cc:88-104).  Draw.v gives these lookups a value
    whatever the argument is; in C++ they are defined only if the order of the container is a
    strict weak order on its elements and the argument, which NaN can spoil.  Here the functions
    of Draw.v and Main.v from GetRotated upwards are repeated with the evaluation of a point and
    the circle fit as parameters (with those of Draw.v they are the same functions, P_Lookup.v),
    and then run with checks. *)
From Verif Require Import Base Num Geo Stl StlRead Env Ast Lexer Parser Ps Draw Main.

Section By.
  Context {A : Arith} {E : Env}.
  Local Open Scope num_scope.
  (** GetRotated (stl-to-ps.cc:305-319) and the circle fit of GetCenter (stl-to-ps.cc:273-296). *)
  Variable gr : nat -> vst * list meta -> outcome (vst * list meta * bool * v3).
  Variable fit : point_set -> v2 -> outcome (option (v2 * num)).

  (** stl-to-ps.cc:323-461  operator()(const Angle&) *)
  Definition visit_angle_by (d : dim) (s0 : vst) : vret :=
    let ml := d_meta d in
    let l := d_loc d in
    let '(ok0, m0, lg) := flatten "angle" ml in
    let s := log_all lg s0 in
    let '(p_at, m1) := take "at" m0 in
    let '(p_apex, m2) := take "apex" m1 in
    let '(p_from_dir, m3_) := take "from_dir" m2 in
    let '(p_from_point, m4) := take "from_point" m3_ in
    let '(p_to_dir, m5) := take "to_dir" m4 in
    let '(p_to_point, m6) := take "to_point" m5 in
    let '(p_fmt, m7) := take "fmt" m6 in
    match m7 with
    | _ :: _ => Ret (unexpected "angle" l ml m7 s, ml, false)
    | [] =>
        let '(s, k1) := need l p_at "Missing 'at'" s in
        let '(s, k2) := need l p_apex "Missing 'apex'" s in
        let '(s, k3) := if is_some p_from_dir then (s, true)
                        else need l p_from_point "Missing 'from_{dir,point}'" s in
        let '(s, k4) := if is_some p_to_dir then (s, true)
                        else need l p_to_point "Missing 'to_{dir,point}'" s in
        if negb (ok0 && k1 && k2 && k3 && k4) then Ret (s, ml, false)
        else
          let both_f := is_some p_from_dir && is_some p_from_point in
          let both_t := is_some p_to_dir && is_some p_to_point in
          let s := match p_from_dir with
                   | Some i => if both_f then err (mloc ml i) (B "Both 'from_{dir,point}' provided") s else s
                   | None => s end in
          let s := match p_to_dir with
                   | Some i => if both_t then err (mloc ml i) (B "Both 'to_{dir,point}' provided") s else s
                   | None => s end in
          if both_f || both_t then Ret (s, ml, false)
          else
            match p_at, p_apex with
            | Some i_at, Some i_apex =>
                do! '(s, ml, r1, at_) <- gr i_at (s, ml);
                do! '(s, ml, r2, apex) <- gr i_apex (s, ml);
                do! '(s, ml, r3, from_dir, from_point) <-
                  match p_from_dir, p_from_point with
                  | Some i, _ =>
                      do! '(s, ml, r, v) <- gr i (s, ml);
                      Ret (s, ml, r, normalized3 v, apex)
                  | None, Some i =>
                      do! '(s, ml, r, v) <- gr i (s, ml);
                      Ret (s, ml, r, normalized3 (sub3 v apex), v)
                  | None, None => Abort (AUB "null Meta*")
                  end;
                do! '(s, ml, r4, to_dir, to_point) <-
                  match p_to_dir, p_to_point with
                  | Some i, _ =>
                      do! '(s, ml, r, v) <- gr i (s, ml);
                      Ret (s, ml, r, normalized3 v, apex)
                  | None, Some i =>
                      do! '(s, ml, r, v) <- gr i (s, ml);
                      Ret (s, ml, r, normalized3 (sub3 v apex), v)
                  | None, None => Abort (AUB "null Meta*")
                  end;
                let '(s, fmt) := get_fmt "angle" "%.1f" p_fmt (s, ml) in
                match fmt with
                | None => Ret (s, ml, false)
                | Some f =>
                    if negb (r1 && r2 && r3 && r4) then Ret (s, ml, false)
                    else
                      let '(s, ok) := draw_angle l f at_ apex from_dir from_point to_dir to_point s in
                      Ret (s, ml, ok)
                end
            | _, _ => Abort (AUB "null Meta*")
            end
    end.

  (** stl-to-ps.cc:232-303  GetCenter: Some (at, dir, center, rad) or None.
      p_dir is never null at line 263, so the else branch there is dead. *)
  Definition get_center_by (l : loc) (m0 : seen) (w : vst * list meta)
    : outcome (vst * list meta * seen * option (v2 * v2 * v2 * num)) :=
    let '(s, ml) := w in
    let '(p_at, m1) := take "at" m0 in
    let '(p_dir, m2) := take "dir" m1 in
    let '(p_center, m3_) := take "center" m2 in
    let '(s, k1) := need l p_at "Missing 'at'" s in
    let '(s, k2) := need l p_dir "Missing 'dir'" s in
    let '(s, k3) := need l p_center "Missing 'center'" s in
    match p_at, p_dir, p_center with
    | Some i_at, Some i_dir, Some i_center =>
        if (length (v_points s) <? 3)%nat
        then Ret (err l (B "Not enought points") s, ml, m3_, None)
        else
          do! '(s, ml, r1, at_) <- gr i_at (s, ml);
          do! '(s, ml, r2, target) <- gr i_center (s, ml);
          do! '(s, ml, r3, dir) <- gr i_dir (s, ml);
          if negb (r1 && r2 && r3) then Ret (s, ml, m3_, None)
          else
            do! fc <- fit (v_points s) (xy target);
            match fc with
            | None => Ret (err l (B "Failed to find center") s, ml, m3_, None)
            | Some (c, rad) => Ret (s, ml, m3_, Some (xy at_, xy dir, c, rad))
            end
    | _, _, _ => Ret (s, ml, m3_, None)
    end.

  (** stl-to-ps.cc:463-534, 728-795  operator()(const Dia&), operator()(const Rad&)
      with RenderDia / RenderRad, which differ only in name and drawing. *)
  Definition visit_circ_by (what : string)
             (draw : bytes -> v2 -> v2 -> v2 -> num -> vst -> vst) (d : dim) (s0 : vst) : vret :=
    let ml := d_meta d in
    let l := d_loc d in
    let '(ok0, m0, lg) := flatten what ml in
    let s := log_all lg s0 in
    if negb ok0 then Ret (s, ml, false)
    else
      do! '(s, ml, m, gc) <- get_center_by l m0 (s, ml);
      match gc with
      | None => Ret (s, ml, false)
      | Some (at_, dir, center, r) =>
          let '(p_fmt, m') := take "fmt" m in
          match m' with
          | _ :: _ => Ret (unexpected what l ml m' s, ml, false)
          | [] =>
              let '(s, fmt) := get_fmt what "%.3f" p_fmt (s, ml) in
              match fmt with
              | None => Ret (s, ml, false)
              | Some f => Ret (draw f center at_ dir r s, ml, true)
              end
          end
      end.
  Definition visit_dia_by : dim -> vst -> vret := visit_circ_by "dia" draw_dia.
  Definition visit_rad_by : dim -> vst -> vret := visit_circ_by "rad" draw_rad.

  (** stl-to-ps.cc:536-659  operator()(const Dim&) *)
  Definition visit_dim_by (d : dim) (s0 : vst) : vret :=
    let ml := d_meta d in
    let l := d_loc d in
    let '(ok0, m0, lg) := flatten "dim" ml in
    let s := log_all lg s0 in
    let '(p_at, m1) := take "at" m0 in
    let '(p_dir, m2) := take "dir" m1 in
    let '(p_from, m3_) := take "from" m2 in
    let '(p_to, m4) := take "to" m3_ in
    let '(p_fmt, m5) := take "fmt" m4 in
    match m5 with
    | _ :: _ => Ret (unexpected "dim" l ml m5 s, ml, false)
    | [] =>
        let '(s, k1) := need l p_at "Missing 'at'" s in
        let '(s, k2) := need l p_dir "Missing 'dir'" s in
        let '(s, k3) := need l p_from "Missing 'from'" s in
        let '(s, k4) := need l p_to "Missing 'to'" s in
        if negb (ok0 && k1 && k2 && k3 && k4) then Ret (s, ml, false)
        else
          match p_at, p_dir, p_from, p_to with
          | Some i_at, Some i_dir, Some i_from, Some i_to =>
              do! '(s, ml, r1, at_) <- gr i_at (s, ml);
              do! '(s, ml, r2, dir) <- gr i_dir (s, ml);
              do! '(s, ml, r3, from) <- gr i_from (s, ml);
              do! '(s, ml, r4, to) <- gr i_to (s, ml);
              if eq3 dir zero3
              then Ret (err (mloc ml i_dir) (B "Dimention's 'dir' must not be the zero vector") s, ml, false)
              else
                let '(s, fmt) := get_fmt "dim" "%.3f" p_fmt (s, ml) in
                match fmt with
                | None => Ret (s, ml, false)
                | Some f =>
                    if negb (r1 && r2 && r3 && r4) then Ret (s, ml, false)
                    else Ret (draw_dim f at_ (normalized3 dir) from to s, ml, true)
                end
          | _, _, _, _ => Abort (AUB "null Meta*")
          end
    end.

  Definition visit_base_dim_by (d : dim) (s : vst) : outcome (vst * dim * bool) :=
    do! '(s', ml, ok) <-
      match d_kind d with
      | KAngle => visit_angle_by d s
      | KDia => visit_dia_by d s
      | KDim => visit_dim_by d s
      | KRad => visit_rad_by d s
      end;
    Ret (s', Dim (d_kind d) (d_loc d) ml, ok).

  (** stl-to-ps.cc:228  the loop of AddDims: every dimension is visited. *)
  Fixpoint visit_dims_by (ds : list dim) (s : vst) : outcome (vst * list dim * bool) :=
    match ds with
    | [] => Ret (s, [], true)
    | d :: t =>
        do! '(s1, d', ok1) <- visit_base_dim_by d s;
        do! '(s2, t', ok2) <- visit_dims_by t s1;
        Ret (s2, d' :: t', ok1 && ok2)
    end.

  (** stl-to-ps.cc:221-230  AddDims *)
  Definition add_dims_by (file : stl) (ds : list dim) (rot : m3) (s : vst)
    : outcome (vst * list dim * bool) :=
    if strict_weak order (flat_map fverts (facets file))
    then visit_dims_by ds (Vst (points file) rot (v_scale s) (v_d s) (v_page s) (v_log s))
    else Abort (AUB "std::set without a strict weak ordering").

  (** stl-to-ps.cc:661-726  operator()(const Draw&) *)
  Definition visit_draw_by (files : stl_map) (l : loc) (name : bytes) (ml : list meta) (dims : list dim)
             (s0 : vst) : outcome (vst * list dim * bool) :=
    let '(ok0, m0, lg) := flatten "draw" ml in
    let s := log_all lg s0 in
    if negb ok0 then Ret (s, dims, false)
    else
      let '(p_scale, m1) := take "scale" m0 in
      let '(s, sc) := get_scale ml p_scale s in
      match sc with
      | None => Ret (s, dims, false)
      | Some ab =>
          let s := Vst (v_points s) (v_rot s) (proj_scale ab) (v_d s) (v_page s) (v_log s) in
          match smap_find bytes_ltb name files with
          | None => Ret (err l (B "Unknown model '" ++ name ++ B "'") s, dims, false)
          | Some fo =>
              let '(p_view, m2) := take "view" m1 in
              let '(s, vw) := get_view ml p_view s in
              match vw with
              | None => Ret (s, dims, false)
              | Some rotation =>
                  let '(p_loc, m3_) := take "@" m2 in
                  do! loc <- match p_loc with
                             | None => Ret (V2 nz nz)
                             | Some i => do! v <- get_at ml i;
                                         Ret (add2 (mul2 v (of_Z 72)) page_mid)
                             end;
                  match fo with
                  | None => Abort (AUB "null STLFile")
                  | Some file =>
                      do! proj0 <- rotate file rotation;
                      let proj := cull_back_face proj0 in
                      let lim := limits proj in
                      let d := sub2 loc (mul2 (div2 (add2 (lo lim) (lt_ lim)) n2) (v_scale s)) in
                      let s := Vst (v_points s) (v_rot s) (v_scale s) d (v_page s) (v_log s) in
                      do! ls <- to_lines proj;
                      let s := add_lines ls s in
                      do! '(s, dims', ok) <- add_dims_by proj dims rotation s;
                      if negb ok then Ret (s, dims', false)
                      else
                        match m3_ with
                        | _ :: _ => Ret (unexpected "draw" l ml m3_ s, dims', false)
                        | [] => Ret (s, dims', true)
                        end
                  end
              end
          end
      end.

  Definition visit_drawable_by (files : stl_map) (d : drawable) (s : vst) : outcome (vst * drawable * bool) :=
    match d with
    | DDraw l n ml ds =>
        do! '(s', ds', ok) <- visit_draw_by files l n ml ds s;
        Ret (s', DDraw l n ml ds', ok)
    | DText l t ml => do! '(s', ok) <- visit_text l t ml s; Ret (s', d, ok)
    end.
  Fixpoint visit_drawables_by (files : stl_map) (ds : list drawable) (s : vst)
    : outcome (vst * list drawable * bool) :=
    match ds with
    | [] => Ret (s, [], true)
    | d :: t =>
        do! '(s1, d', ok1) <- visit_drawable_by files d s;
        do! '(s2, t', ok2) <- visit_drawables_by files t s1;
        Ret (s2, d' :: t', ok1 && ok2)
    end.

  (** stl-to-ps.cc:175-205: one page; n is the number of this page. *)
  Definition gen_page_by (files : stl_map) (n : nat) (pg : page) (s0 : vst) : outcome (vst * page * bool) :=
    let ml := pg_meta pg in
    let '(ok0, m0, lg) := flatten "page" ml in
    let s := set_page opage_empty (log_all lg s0) in
    let '(p_name, m1) := take "name" m0 in
    let '(s, name, ok1) :=
      match p_name with
      | None => (s, [], true)
      | Some i =>
          match nth_error ml i with
          | None => (s, [], false)
          | Some m =>
              match as_str m with
              | Some nm => (s, nm, true)
              | None => (err (m_loc m) (B "Expected document name to be a string, got '"
                                          ++ type_name (mkind (m_val m)) ++ B "'") s, [], false)
              end
          end
      end in
    do! '(s, ds, ok2) <- visit_drawables_by files (pg_draws pg) s;
    let s := set_page (add_header (v_page s) name) s in
    let '(s, ok3) :=
      match m1 with
      | [] => (s, true)
      | _ :: _ =>
          (log_all (DSym (pg_loc pg) (B "Unexepcted properties for page " ++ dec_of_nat n)
                      :: list_unknown ml m1) s, false)
      end in
    Ret (s, Page (pg_loc pg) ml ds, ok0 && ok1 && ok2 && ok3).

  (** stl-to-ps.cc:170-207  GeneratePages: one visitor for all pages. *)
  Fixpoint gen_pages_by (files : stl_map) (n : nat) (pgs : list page) (s : vst)
    : outcome (vst * list page * list opage * bool) :=
    match pgs with
    | [] => Ret (s, [], [], true)
    | pg :: t =>
        do! '(s1, pg', ok1) <- gen_page_by files n pg s;
        do! '(s2, t', os, ok2) <- gen_pages_by files (S n) t s1;
        Ret (s2, pg' :: t', v_page s1 :: os, ok1 && ok2)
    end.
  (** Result: pages drawn, document afterwards, diagnostics, return value. *)
  Definition generate_pages_by (files : stl_map) (d : document)
    : outcome (list opage * document * list diag * bool) :=
    do! '(s, pgs, os, ok) <- gen_pages_by files 1 (doc_pages d) vst_init;
    Ret (os, Doc (doc_models d) pgs, v_log s, ok).

  Local Close Scope num_scope.
  (** stl-to-ps.cc:209-219  ScriptToPS(src, doc, out) *)
  Definition doc_to_ps_by (fs : files) (src : bytes) (d : document) : outcome result :=
    do! '(st, lg1, ok1) <- load_files fs (doc_models d) [];
    if negb ok1 then Ret (Res false [] lg1)
    else
      do! '(os, _, lg2, ok2) <- generate_pages_by st d;
      if negb ok2 then Ret (Res false [] (lg1 ++ lg2))
      else Ret (Res true (render_pages src os) (lg1 ++ lg2)).

  (** stl-to-ps.cc:108-118  ScriptToPS(src, in, out) *)
  Definition script_to_ps_by (fs : files) (src contents : bytes) : outcome result :=
    do! '(rc, d, lg) <- parse src contents;
    if rc =? 0
    then do! r <- doc_to_ps_by fs src d; Ret (Res (r_ok r) (r_out r) (lg ++ r_log r))
    else Ret (Res false [] (lg ++ [DLog (B "Parse failed with rc=" ++ dec_of_nat rc)])).

End By.

Section Checked.
  Context {A : Arith} {E : Env}.
  Definition bad_lookup : abort := AUB "a lookup without a strict weak ordering".
  (** ast.cc:82-108: whether equal_range and emplace are called only with keys that the order
      of the multimap [c] can compare. *)
  Fixpoint closest_ok (count : nat) (to : v2) (c : list (num * v2)) (ps : list v2) : bool :=
    match ps with
    | [] => true
    | p :: t =>
        let d := sqn2 (sub2 p to) in
        (match last_key c with Some k => ngt d k | None => false end || strict_weak nlt (d :: map fst c))
        && closest_ok count to (closest_step count to c p) t
    end.
  (** ast.cc:44-156: whether all lookups while a point is evaluated are defined. *)
  Fixpoint lookups_ok (ps : point_set) (p : point) : bool :=
    match p with
    | PVal _ _ => true
    | PFunc n q _ =>
        if bytes_eqb n (B "near") then
          match ps with
          | [] => true
          | _ => lookups_ok ps q && match snd (invoke ps q) with Some t => strict_weak order (t :: ps) | None => true end
          end
        else if bytes_eqb n (B "center") then
          if length ps <? 3 then true
          else lookups_ok ps q && match snd (invoke ps q) with Some t => closest_ok 3 (xy t) [] (map xy ps) | None => true end
        else true
    end.
  Definition get_rotated_ck (i : nat) (w : vst * list meta) : outcome (vst * list meta * bool * v3) :=
    do! r <- get_rotated i w;
    match nth_error (snd w) i with
    | Some m => match as_point m with
                | Some p => if lookups_ok (v_points (fst w)) (point_rotate (v_rot (fst w)) p) then Ret r else Abort bad_lookup
                | None => Ret r
                end
    | None => Ret r
    end.
  Definition fit_ck (ps : point_set) (t : v2) : outcome (option (v2 * num)) :=
    if closest_ok 3 t [] (map xy ps) then Ret (fit_circle ps t) else Abort bad_lookup.
  (** ScriptToPS with these checks. *)
  Definition script_to_ps_ck := script_to_ps_by get_rotated_ck fit_ck.
  Definition visit_dims_ck := visit_dims_by get_rotated_ck fit_ck.
End Checked.
