(** Ast.v - the document (ast.h) and the point functions of ast.cc. *)
From Verif Require Import Base Num Geo Env.

Section Ast.
  Context {A : Arith}.

  (** ast.h:92-141  Point, Val, PointFunc *)
  Inductive point :=
  | PVal (p : v3) (l : loc)
  | PFunc (name : bytes) (p : point) (l : loc).

  (** ast.h:143-238  Meta: the five value types the parser builds (parser.y:128-140). *)
  Inductive mval :=
  | MStr (s : bytes)
  | MPoint (p : point)
  | MNum (f : num)
  | MLoc (v : v2)
  | MScale (a b : Z).
  Record meta := Meta { m_name : bytes; m_val : mval; m_loc : loc }.
  Definition mkind (v : mval) : nat :=
    match v with MStr _ => 0 | MPoint _ => 1 | MNum _ => 2 | MLoc _ => 3 | MScale _ _ => 4 end.

  (** ast.h:263-270 *)
  Record model := Model { mo_name : bytes; mo_source : bytes; mo_loc : loc }.

  (** ast.h:293-318 *)
  Inductive dkind := KAngle | KDia | KDim | KRad.
  Record dim := Dim { d_kind : dkind; d_loc : loc; d_meta : list meta }.

  (** ast.h:277-, Draw and Text *)
  Inductive drawable :=
  | DDraw (l : loc) (name : bytes) (ml : list meta) (dims : list dim)
  | DText (l : loc) (text : bytes) (ml : list meta).

  (** Page and Document *)
  Record page := Page { pg_loc : loc; pg_meta : list meta; pg_draws : list drawable }.
  Record document := Doc { doc_models : list model; doc_pages : list page }.

  (** Meta::As<T> (ast.h:240-248) and Meta::get<Point> (250-260): by dynamic type. *)
  Definition as_str (m : meta) : option bytes := match m_val m with MStr s => Some s | _ => None end.
  Definition as_loc (m : meta) : option v2 := match m_val m with MLoc v => Some v | _ => None end.
  Definition as_scale (m : meta) : option (Z * Z) :=
    match m_val m with MScale a b => Some (a, b) | _ => None end.
  Definition as_point (m : meta) : option point :=
    match m_val m with MPoint p => Some p | _ => None end.

  (** Val::Rotate (ast.h:105), PointFunc::Rotate (132) *)
  Fixpoint point_rotate (m : m3) (p : point) : point :=
    match p with
    | PVal v l => PVal (mulm v m) l
    | PFunc n q l => PFunc n (point_rotate m q) l
    end.

  (** ast.cc:187-198  GetMatrixByName *)
  Definition matrix_by_name (s : bytes) : option m3 :=
    if bytes_eqb s (B "X+") then Some mXP
    else if bytes_eqb s (B "X-") then Some mXN
    else if bytes_eqb s (B "Y+") then Some mYP
    else if bytes_eqb s (B "Y-") then Some mYN
    else if bytes_eqb s (B "Z+") then Some mZP
    else if bytes_eqb s (B "Z-") then Some mZN
    else None.

  Local Open Scope num_scope.

  (** ast.cc:200-202  GetMatrixByAng *)
  Definition matrix_by_ang (a : v2) : m3 :=
    geo_rotate (x2 a * PI / of_Z 180) (y2 a * PI / of_Z 180).

  (** ast.cc:64-76: nearest in the page plane; r starts at DBL_MAX and the
      result keeps its old value (zero) if nothing is closer than that. *)
  Definition flat (p : v3) : v3 := V3 (x3 p) (y3 p) nz.
  Definition near_step (target : v3) (st : num * v3) (x : v3) : num * v3 :=
    let '(r, ret) := st in
    let x' := flat x in
    let d := sqn3 (sub3 target x') in
    if d <? r then (d, x') else (r, ret).
  (** ast.cc:60-76  Near, after its argument evaluated to [target]. *)
  Definition near_of (ps : point_set) (target : v3) : v3 :=
    if ps_mem target ps then target
    else snd (fold_left (near_step (flat target)) ps (dbl_max, zero3)).

  (** ** Circle fitting: center.cc:37-65 and ast.cc:82-122.
      Sums are taken left to right; Eigen may associate them differently, so
      theorems about the fitted values are over exact arithmetic or, in doubles,
      over all orders (CircSpec.v). *)
  Definition nsum (l : list num) : num := fold_left nadd l nz.
  (** Eigen 3x3 inverse: cofactors times 1/det. *)
  Definition inv3 (m : m3) : m3 :=
    let a := row0 m in let b := row1 m in let c := row2 m in
    let c00 := y3 b * z3 c - z3 b * y3 c in
    let c10 := y3 c * z3 a - z3 c * y3 a in
    let c20 := y3 a * z3 b - z3 a * y3 b in
    let det := sum3 (c00 * x3 a) (c10 * x3 b) (c20 * x3 c) in
    let id := n1 / det in
    M3 (V3 (c00 * id) (c10 * id) (c20 * id))
       (V3 ((z3 b * x3 c - x3 b * z3 c) * id) ((z3 c * x3 a - x3 c * z3 a) * id)
           ((z3 a * x3 b - x3 a * z3 b) * id))
       (V3 ((x3 b * y3 c - y3 b * x3 c) * id) ((x3 c * y3 a - y3 c * x3 a) * id)
           ((x3 a * y3 b - y3 a * x3 b) * id)).
  (** Rows of X (center.cc:47-56) and Y. *)
  Definition fc_row (p : v2) : v3 := V3 (x2 p) (y2 p) (of_dec 5 (-1)).
  Definition fc_y (p : v2) : num := dot2 p p / of_Z 2.
  (** Xt * X *)
  Definition fc_gram (ps : list v2) : m3 :=
    let s (f g : v3 -> num) := nsum (map (fun p => f (fc_row p) * g (fc_row p)) ps) in
    M3 (V3 (s x3 x3) (s x3 y3) (s x3 z3)) (V3 (s y3 x3) (s y3 y3) (s y3 z3))
       (V3 (s z3 x3) (s z3 y3) (s z3 z3)).
  (** (inverse * Xt) * Y: component i is the sum over points of (row_i . x_p) * y_p. *)
  Definition fc_res (ps : list v2) : v3 :=
    let m := inv3 (fc_gram ps) in
    let comp (r : v3) := nsum (map (fun p => dot3 r (fc_row p) * fc_y p) ps) in
    V3 (comp (row0 m)) (comp (row1 m)) (comp (row2 m)).
  (** center.cc:37-65  FindCircle; std::pow(x, 2) is x * x. *)
  Definition find_circle (ps : list v2) : option (v2 * num) :=
    if (length ps <? 3)%nat then None
    else
      let r := fc_res ps in
      Some (V2 (x3 r) (y3 r), nsqrt (z3 r + x3 r * x3 r + y3 r * y3 r)).

  (** std::multimap<double, RowVector2d> as a list in key order.
      Range equivalent to d (equal_range), and insertion at its upper end. *)
  Definition mm_equal (d : num) (c : list (num * v2)) : list (num * v2) :=
    filter (fun kv => negb (fst kv <? d) && negb (d <? fst kv)) c.
  Fixpoint mm_insert (d : num) (p : v2) (c : list (num * v2)) : list (num * v2) :=
    match c with
    | [] => [(d, p)]
    | (k, q) :: t => if d <? k then (d, p) :: c else (k, q) :: mm_insert d p t
    end.
  Fixpoint last_key (c : list (num * v2)) : option num :=
    match c with [] => None | [(k, _)] => Some k | _ :: t => last_key t end.
  (** ast.cc:88-104: one point. [count] >= 1 here. *)
  Definition closest_step (count : nat) (to : v2) (c : list (num * v2)) (p : v2)
    : list (num * v2) :=
    let d := sqn2 (sub2 p to) in
    if match last_key c with Some k => ngt d k | None => false end then c
    else if existsb (fun kv => sqn2 (sub2 p (snd kv)) <? d * of_dec 1 (-2)) (mm_equal d c) then c
    else firstn count (mm_insert d p c).
  (** ast.cc:82-108  Closest *)
  Definition closest (ps : list v2) (count : Z) (to : v2) : list v2 :=
    if (count <? 1)%Z then []
    else map snd (fold_left (closest_step (Z.to_nat count) to) ps []).
  (** ast.cc:111-122  Between *)
  Definition between (ps : list v2) (mn mx : num) (to : v2) : list v2 :=
    if (mx <? nz) || ngt mn mx then []
    else filter (fun p => let r2 := sqn2 (sub2 p to) in (mn * mn <? r2) && (r2 <? mx * mx)) ps.

  (** Shared by ast.cc:134-151 and stl-to-ps.cc:273-296: the two-stage fit. *)
  Definition del : num := of_dec 1 (-1).
  Definition fit_circle (ps : point_set) (target : v2) : option (v2 * num) :=
    let points := map xy ps in
    match find_circle (closest points 3 target) with
    | None => None
    | Some (c, rad) =>
        find_circle (between points (rad * (n1 - del)) (rad * (n1 + del)) c)
    end.

  (** ast.cc:44-156  Val::Invoke, PointFunc::Invoke / Near / Center.
      The result is None when the C++ function returns false; its out parameter
      then still has its initial value, zero (BUILD:65 has Eigen zero-initialise). *)
  Fixpoint invoke (ps : point_set) (p : point) : list diag * option v3 :=
    match p with
    | PVal v _ => ([], Some v)
    | PFunc n q l =>
        if bytes_eqb n (B "near") then
          match ps with
          | [] => ([], None)
          | _ =>
              match invoke ps q with
              | (lg, None) => (lg, None)
              | (lg, Some t) => (lg, Some (near_of ps t))
              end
          end
        else if bytes_eqb n (B "center") then
          if (length ps <? 3)%nat then ([], None)
          else
            match invoke ps q with
            | (lg, None) => (lg, None)
            | (lg, Some t) =>
                match fit_circle ps (xy t) with
                | None => (lg, None)
                | Some (c, _) => (lg, Some (V3 (x2 c) (y2 c) nz))
                end
            end
        else ([DSym l (B "Unknown function '" ++ n ++ B "'")], None)
    end.

End Ast.
