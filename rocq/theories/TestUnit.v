(** TestUnit.v - the project's unit tests run on the model, in doubles: the
    checks of center_test.cc, geo_test.cc, ast_test.cc, stl_test.cc, ps_test.cc
    and stl-to-ps_lib_test.cc that compare results.  Tests that only call a
    function, and those of C++ types (Meta::New, visitors), are left out.  A
    Meta<int>, which no script produces, is played by one of a float. *)
From Coq Require Import ZArith.
From Flocq Require Import IEEE754.BinarySingleNaN.
From Verif Require Import Base Num NumF64 Env Geo Stl StlRead Ast Lexer Parser Ps Draw Main Run TestFiles.

Local Unset Implicit Arguments.
Local Open Scope string_scope.
Local Open Scope list_scope.
Local Existing Instances RunA RunE.

Ltac run := match goal with |- _ = ?y => vm_cast_no_check (eq_refl y) end.

Definition z (n : Z) : num := of_Z n.
Definition p2 (x y : Z) : v2 := V2 (z x) (z y).
Definition p3 (x y w : Z) : v3 := V3 (z x) (z y) (z w).
Definition no_loc : loc := Loc (B "??") 0.
Definition eq2s (a b : list v2) : bool := Nat.eqb (length a) (length b) && forallb (fun p => eq2 (fst p) (snd p)) (combine a b).
(** UnorderedElementsAre, for lists without repetition *)
Definition same_elements (a b : list v2) : bool := Nat.eqb (length a) (length b) && forallb (fun p => existsb (eq2 p) b) a && forallb (fun p => existsb (eq2 p) a) b.

(** ** center_test.cc *)
Example center_empty : match find_circle [] with None => true | Some _ => false end = true. Proof. run. Qed.
Example center_exact : match find_circle [p2 0 1; p2 1 2; p2 2 1] with Some (c, r) => eq2 c (p2 1 1) && neq r (z 1) | None => false end = true. Proof. run. Qed.
(** 53-61: the loop in float *)
Fixpoint cpoints (fuel : nat) (t : num) : list v2 :=
  match fuel with
  | O => []
  | S fuel =>
      if nlt t (nmul (of_dec 314 (-2)) (z 2)) then
        let k := nadd (z 15) (nsin (to_f32 (nmul t (z 5)))) in
        V2 (to_f32 (nadd (z 20) (nmul (nsin t) k))) (to_f32 (nadd (z 30) (nmul (ncos t) k))) :: cpoints fuel (to_f32 (nadd t (of_dec 1 (-1))))
      else []
  end.
(** The 63 floats the loop makes, in units of 2^-22; the first five are computed here, all were compared once outside. *)
Definition units : list (Z * Z) := (
  [(83886080, 188743680); (90367808, 190430176); (97086456, 190948608); (103715000, 189930624); (109871352, 187290080); (115252368, 183244720);
   (119744528, 178243264); (123468920, 172823520); (126741152, 167450592); (129957064, 162388800); (133442448, 157648896); (137318704, 153024608);
   (141432608, 148202032); (145377328, 142900032); (148600736, 136990880); (150567440, 130557800); (150921712, 123870856); (149597408, 117291392);
   (146838608, 111142056); (143123840, 105591384); (139019296, 100596976); (135009520, 95929680); (131361224, 91272160); (128063632, 86357168);
   (124862392, 81095872); (121372224, 75648392); (117227112, 70408256); (112215352, 65901924); (106353592, 62634780); (99876544, 60934364);
   (93149536, 60843964); (86538168, 62103720); (80284040, 64227316); (74432576, 66650304); (68839328, 68901928); (63252204, 70744392);
   (57439060, 72234608); (51312852, 73689528); (45006772, 75568472); (38868864, 78313616); (33374342, 82202432); (28983370, 87260896);
   (25992788, 93264056); (24433564, 99820040); (24051780, 106504696); (24382638, 112997608); (24895352, 119171040); (25162284, 125101432);
   (24996534, 131001608); (24512328, 137100704); (24088106, 143517984); (24244560, 150178496); (25478228, 156803984); (28105526, 162984400);
   (32167998, 168306368); (37427928, 172493072); (43452748, 175504672); (49756568, 177561280); (55948860, 179076320); (61839288, 180520240);
   (67464520, 182258704); (73031200, 184419984); (78799144, 186837248)])%Z.
Definition Points : list v2 := map (fun p => V2 (ndiv (z (fst p)) (z 4194304)) (ndiv (z (snd p)) (z 4194304))) units.
Example points_start : eq2s (cpoints 5 (z 0)) (firstn 5 Points) && Nat.eqb (length Points) 63 = true. Proof. run. Qed.
Definition near_to (x y : num) (d : num) : bool := nle (nabs (nsub x y)) d.
Definition found_about (ps : list v2) (cx cy r s : num) : bool :=
  match find_circle ps with
  | Some (c, q) => near_to (x2 c) cx (nmul s (of_dec 3 (-5))) && near_to (y2 c) cy (nmul s (of_dec 2 (-3))) && near_to q r (nmul s (of_dec 2 (-2)))
  | None => false
  end.
(** Inexact, InexactPosition and InexactScale. *)
Example center_inexact :
  (let ps := Points in
   found_about ps (z 20) (z 30) (z 15) (z 1) && found_about (map (fun p => add2 p (p2 234 567)) ps) (z 254) (z 597) (z 15) (z 1) &&
   found_about (map (fun p => mul2 p (z 234)) ps) (z 4680) (z 7020) (z 3510) (z 234)) = true.
Proof. run. Qed.

(** ** geo_test.cc *)
Example geo_math : (order py px, order pz py) = (true, true). Proof. run. Qed.
Example geo_rotate_zero : eqm (geo_rotate (z 0) (z 0)) (M3 px py pz) = true. Proof. run. Qed.
Example geo_point_rotate : forallb (fun t => let '(p, m, q) := t in eq3 (mulm p m) q)
  [(px, mXP, pz); (py, mXP, px); (pz, mXP, py); (px, mXN, neg3 pz); (py, mXN, neg3 px); (pz, mXN, py);
   (px, mYP, neg3 px); (py, mYP, pz); (pz, mYP, py); (px, mYN, px); (py, mYN, neg3 pz); (pz, mYN, py);
   (px, mZP, px); (py, mZP, py); (pz, mZP, pz); (px, mZN, px); (py, mZN, neg3 py); (pz, mZN, neg3 pz)] = true.
Proof. run. Qed.

(** ** ast_test.cc *)
Definition gives (ps : point_set) (p : point) (q : v3) : bool := match snd (invoke ps p) with Some r => eq3 r q | None => false end.
Definition fails (ps : point_set) (p : point) : bool := match snd (invoke ps p) with Some _ => false | None => true end.
Example val_basic : gives [] (PVal (p3 1 2 3) no_loc) (p3 1 2 3) && gives [] (point_rotate mXP (PVal (p3 1 2 3) no_loc)) (p3 2 3 1) = true. Proof. run. Qed.
Definition grid : list v2 := [p2 (-10) 10; p2 0 10; p2 10 10; p2 (-10) 0; p2 0 0; p2 10 0; p2 (-10) (-10); p2 0 (-10); p2 10 (-10)].
Example impl_closest :
  same_elements (closest grid (-1) (p2 1 0)) [] && same_elements (closest grid 0 (p2 1 0)) [] && eq2s (closest grid 1 (p2 1 0)) [p2 0 0] &&
  same_elements (closest grid 2 (p2 1 0)) [p2 0 0; p2 10 0] && same_elements (closest grid 4 (p2 1 0)) [p2 0 0; p2 10 0; p2 0 (-10); p2 0 10] &&
  same_elements (closest grid 10 (p2 1 0)) grid = true.
Proof. run. Qed.
Example impl_between :
  same_elements (between grid (z 0) (of_dec 5 (-1)) (p2 1 0)) [] && same_elements (between grid (of_dec 85 (-1)) (of_dec 95 (-1)) (p2 1 0)) [p2 10 0] &&
  same_elements (between grid (of_dec 85 (-1)) (of_dec 105 (-1)) (p2 1 0)) [p2 10 0; p2 0 (-10); p2 0 10] = true.
Proof. run. Qed.
Definition fn (name : string) (p : v3) : point := PFunc (B name) (PVal p no_loc) no_loc.
Example func_unknown : fails [] (fn "error" (p3 0 0 0)) = true. Proof. run. Qed.
Example func_near : fails [] (fn "near" (p3 1 2 3)) && gives [p3 3 3 0] (fn "near" (p3 1 2 3)) (p3 3 3 0) && gives [p3 3 3 0] (point_rotate mXP (fn "near" (p3 1 2 3))) (p3 3 3 0) = true.
Proof. run. Qed.
Definition set_of (l : list v3) : point_set := fold_left (fun s p => ps_insert p s) l [].
Example func_center : fails [] (fn "center" (p3 4 4 0)) && gives (set_of [p3 2 4 0; p3 0 2 0; p3 2 2 0; p3 4 2 0; p3 2 0 0]) (fn "center" (p3 4 4 0)) (p3 3 3 0) = true.
Proof. run. Qed.
Example free_new_quote : new_quote (B """\\world\n""") = Ret (B "\world" ++ [nl]). Proof. run. Qed.
Example free_matrix : match matrix_by_name (B "W+"), matrix_by_name (B "X+") with None, Some m => eqm m mXP && eqm (matrix_by_ang (p2 0 0)) (M3 px py pz) | _, _ => false end = true.
Proof. run. Qed.

(** ** stl_test.cc *)
Definition kGood : bytes := file_of ["solid test";
  "  facet normal 1 1 1"; "    outer loop"; "      vertex 1.0 0.0 0"; "      vertex 0.0 1   0.0"; "      vertex 0   0.0 1.0"; "    endloop"; "  endfacet";
  "  facet normal -1 0 -0.0"; "    outer loop"; "      vertex 0.0 0.0 0.0"; "      vertex 0.0 1.0 0.0"; "      vertex 0.0 0.0 1.0"; "    endloop"; "  endfacet";
  "  facet normal 0.0 -2.0 0.0"; "    outer loop"; "      vertex 0.0 0.0 0.0"; "      vertex 1.0 0.0 0.0"; "      vertex 0.0 0.0 1.0"; "    endloop"; "  endfacet";
  "  facet normal 0 0 -01"; "    outer loop"; "      vertex 0.0 0.0 0.0"; "      vertex 1.0 0.0 0.0"; "      vertex 0.0 1.0 0.0"; "    endloop"; "  endfacet";
  "endsolid"; ""].
Definition made (w : bytes) (f : stl -> bool) : bool := match stl_make w with Ret (Some s, _) => f s | _ => false end.
Example stl_make_ok : made [] (fun _ => true) && made kGood (fun s => Nat.eqb (length (facets s)) 4) = true. Proof. run. Qed.
Example stl_make_invalid : match stl_make (B "unknown" ++ [nl]) with Ret (None, _) => true | _ => false end = true. Proof. run. Qed.
Example stl_zero_norm : made (file_of ["solid test"; "  facet normal 0 0 0"; "    outer loop"; "      vertex 1.0 0.0 0"; "      vertex 0.0 1   0.0"; "      vertex 0   0.0 1.0"; "    endloop"; "  endfacet"; "endsolid"; ""])
  (fun s => match points s with [] => true | _ => false end) = true.
Proof. run. Qed.
Example stl_limits : made kGood (fun s => line_eq (limits s) (Line (p2 0 0) (p2 1 1))) && made [] (fun s => line_eq (limits s) (Line (p2 0 0) (p2 0 0))) = true. Proof. run. Qed.
(** Rotate, CullBackFace, ToLines, Points end without a failure. *)
Example stl_smoke : made kGood (fun s => match rotate s mXP, to_lines s with Ret r, Ret _ => Nat.eqb (length (facets r) + length (points (cull_back_face s))) 4 | _, _ => false end) = true. Proof. run. Qed.

(** ** ps_test.cc *)
Definition text_of (l : list string) : bytes := file_of (l ++ [""]).
Example ps_lines : lines_to_ps [Line (p2 1 2) (p2 3 4); Line (p2 5 6) (p2 7 8)] = text_of ["newpath 1 2 moveto 3 4 lineto stroke"; "newpath 5 6 moveto 7 8 lineto stroke"]. Proof. run. Qed.
Example ps_arcs : arcs_to_ps [Arc (p2 1 1) (z 2) (z 0) (of_dec 15 (-1)); Arc (p2 2 2) (z 3) (of_dec 31 (-1)) (of_dec 46 (-1))]
  = text_of ["newpath 1 1 2 0 85.9437 arc stroke"; "newpath 2 2 3 177.617 263.561 arc stroke"].
Proof. run. Qed.
Example ps_arcs_vectors : arcs_to_ps [arc3 zero3 (z 1) px py; arc3 (add3 px py) (z 2) (neg3 px) (neg3 py)]
  = text_of ["newpath 0 0 1 0 90 arc stroke"; "newpath 1 1 2 -180 -90 arc stroke"].
Proof. run. Qed.
Definition hello : bytes := B "hello(" ++ [nl] ++ B ")world".
Example ps_text :
  (text_to_ps [], text_to_ps [Text (p2 6 9) hello false false], text_to_ps [Text (p2 6 9) hello true false], text_to_ps [Text (p2 6 9) (B "hello \351 world") true true])
  = ([], B "newpath 6 9 moveto (hello\(" ++ [nl] ++ B "\)world) show" ++ [nl], B "newpath 6 9 moveto (hello\(" ++ [nl] ++ B "\)world) CenterText show" ++ [nl],
     B "newpath 6 9 moveto (hello \351 world) CenterText show" ++ [nl]).
Proof. run. Qed.
Fixpoint has_sub (w s : bytes) : bool := bytes_eqb (firstn (length w) s) w || match s with [] => false | _ :: t => has_sub w t end.
Example ps_header : has_sub (B "Source: doc") (document_header (B "doc")) && has_sub (B "Time: now") (document_header (B "doc")) && has_sub (B "moveto (now page 7 of 9)") (page_header 7 9) = true.
Proof. run. Qed.

(** ** stl-to-ps_lib_test.cc *)
Example lib_render :
  forallb (fun s => has_sub (B s) (render_pages [] [opage_empty])) ["/Courier findfont"; "/CenterText"; "<< /PageSize [792 612] >> setpagedevice"; ".1 setlinewidth"; "showpage"] = true.
Proof. run. Qed.
Definition dev_fs : files := fun p => if bytes_eqb p (B "/dev/null") then Some [] else if bytes_eqb p (B "/dev/urandom") then Some (B "x?") else None.
Definition loaded (ms : list model) : option (nat * bool) := match load_files dev_fs ms [] with Ret (st, _, ok) => Some (length st, ok) | _ => None end.
Definition hello_from (f : string) : model := Model (B "hello") (B f) no_loc.
Example lib_load : map (fun l => loaded (map hello_from l)) [[]; ["/dev/null"]; ["/dev/null"; "/dev/null"]; ["bad_name_doesnt_exist"]; ["/dev/urandom"]]
  = [Some (0, true); Some (1, true); Some (1, false); Some (1, false); Some (1, false)]%nat.
Proof. run. Qed.
Definition mstr (n v : string) : meta := Meta (B n) (MStr (B v)) no_loc.
Definition mint (n : string) (v : Z) : meta := Meta (B n) (MNum (z v)) no_loc.
Definition mpt (n : string) (p : v3) : meta := Meta (B n) (MPoint (PVal p no_loc)) no_loc.
Definition mloc2 (n : string) (p : v2) : meta := Meta (B n) (MLoc p) no_loc.
Definition pages_of (ps : list (list meta)) : option (nat * bool) :=
  match generate_pages [] (Doc [] (map (fun m => Page no_loc m []) ps)) with Ret (os, _, _, ok) => Some (length os, ok) | _ => None end.
Example lib_pages : pages_of [] = Some (0%nat, true) /\ pages_of [[]] = Some (1%nat, true) /\ option_map snd (pages_of [[mint "name" 1]]) = Some false /\
  pages_of [[mstr "name" "x"]] = Some (1%nat, true) /\ option_map snd (pages_of [[mstr "name" "x"; mstr "unknown" ""]]) = Some false.
Proof. repeat split; run. Qed.
Definition ok_of {T} (o : outcome (T * bool)) : option bool := match o with Ret (_, b) => Some b | _ => None end.
Definition oks (l : list (option bool)) (e : string) : bool :=
  bytes_eqb (map (fun o => match o with Some true => "T" | Some false => "F" | None => "?" end%char) l) (B e).
Definition zp : vst := Vst [] mZP nz (V2 nz nz) opage_empty [].
(** 176-222 *)
Definition add1 (m : list meta) : option bool := ok_of (add_dims stl_empty [Dim KDim no_loc m] mZP zp).
Definition good_dim : list meta := [mpt "at" zero3; mpt "dir" px; mpt "from" zero3; mpt "to" zero3].
Example lib_add_dims : oks [ok_of (add_dims stl_empty [] mZP zp); add1 []; add1 [mint "at" 0; mint "dir" 0; mint "from" 0; mint "to" 0]; add1 good_dim;
  add1 (good_dim ++ [mint "fmt" 1]); add1 (good_dim ++ [mstr "fmt" "%n"]); add1 (good_dim ++ [mstr "fmt" "%.0f"]); add1 (good_dim ++ [mstr "fmt" "%.0f"; mint "extra" 1])] "TFFTFFTF" = true.
Proof. run. Qed.
(** 250-335 *)
Definition ang (m : list meta) : option bool := ok_of (visit_angle (Dim KAngle no_loc m) zp).
Definition a0 : list meta := [mpt "at" px; mpt "apex" zero3].
Definition a1 : list meta := a0 ++ [mpt "from_point" py; mpt "to_point" px].
Example lib_angle : oks [ang []; ang [mpt "at" px]; ang a0; ang (a0 ++ [mpt "from_dir" px]); ang (a0 ++ [mpt "from_dir" px; mpt "to_dir" py]);
  ang (a0 ++ [mpt "from_dir" py; mpt "to_dir" px]); ang (a0 ++ [mpt "from_point" py; mpt "to_dir" px]); ang a1;
  ang (a1 ++ [mint "fmt" 0]); ang (a1 ++ [mstr "fmt" "%n"]); ang (a1 ++ [mstr "fmt" "%f"]);
  ang (a0 ++ [mpt "from_point" py; mloc2 "to_dir" (p2 0 0); mstr "fmt" "%f"]); ang (a0 ++ [mpt "from_point" py; mpt "to_dir" zero3; mstr "fmt" "%f"]);
  ang (a1 ++ [mstr "fmt" "%f"; mloc2 "xxx" (p2 0 0)]); ang (a1 ++ [mstr "fmt" "%f"; mpt "from_point" px]); ang (a1 ++ [mstr "fmt" "%f"; mpt "to_point" px])] "FFFFTTTTFFTFFFFF" = true.
Proof. run. Qed.
Example lib_dim : oks [ok_of (visit_dim (Dim KDim no_loc []) zp); ok_of (visit_dim (Dim KDim no_loc [mpt "at" py; mpt "from" px; mpt "to" py; mpt "dir" px]) zp)] "FT" = true.
Proof. run. Qed.
(** 360-410 *)
Definition drawn (fs : stl_map) (n : string) (m : list meta) : option bool := ok_of (visit_draw fs no_loc (B n) m [] vst_init).
Definition foo : stl_map := [(B "foo", Some stl_empty)].
Definition half : meta := Meta (B "scale") (MScale 1 2) no_loc.
Example lib_draw : oks [drawn [] "" [mstr "scale" ""]; drawn [] "foo" [half]; drawn foo "foo" [half]; drawn foo "foo" [half; mint "view" 1]; drawn foo "foo" [half; mloc2 "view" (p2 0 0)];
  drawn foo "foo" [half; mstr "view" "bad"]; drawn foo "foo" [half; mstr "view" "X+"]; drawn foo "foo" [half; mstr "view" "X+"; mloc2 "@" (p2 1 2)];
  drawn foo "foo" [half; mstr "view" "X+"; mloc2 "@" (p2 1 2); mstr "unknown" ""]] "FFTFTFTTF" = true.
Proof. run. Qed.
Example lib_text : oks [ok_of (visit_text no_loc [] [] zp); ok_of (visit_text no_loc [] [mloc2 "@" (p2 1 2)] zp);
  ok_of (visit_text no_loc (B "hello" ++ [nl; nl] ++ B "world") [mloc2 "@" (p2 1 2)] zp); ok_of (visit_text no_loc [] [mloc2 "@" (p2 1 2); mstr "unknown" ""] zp)] "TTTF" = true.
Proof. run. Qed.
(** 434-476 *)
Definition center_with (ps : point_set) (m : list meta) : option (option (v2 * v2 * v2 * num)) :=
  match get_center no_loc (let '(_, s, _) := flatten "rad" m in s) (Vst ps mZP nz (V2 nz nz) opage_empty [], m) with Ret (_, _, _, r) => Some r | _ => None end.
Definition base : list meta := [mpt "at" (p3 1 0 0); mpt "dir" (V3 (z 1) (of_dec 5 (-1)) (z 0)); mpt "center" (V3 (of_dec 1 (-1)) (z 0) (z 0))].
Definition none_found (o : option (option (v2 * v2 * v2 * num))) : bool := match o with Some None => true | _ => false end.
Example lib_get_center : none_found (center_with [] []) && none_found (center_with [] base) &&
  match center_with (set_of [p3 1 0 0; p3 0 1 0; p3 (-1) 0 0; p3 0 (-1) 0]) base with
  | Some (Some (a, d, c, r)) => eq2 a (p2 1 0) && eq2 d (V2 (z 1) (of_dec 5 (-1))) && eq2 c (p2 0 0) && neq r (z 1)
  | _ => false
  end && none_found (center_with (set_of [p3 1 0 0; p3 0 0 0; p3 (-1) 0 0]) base) = true.
Proof. run. Qed.
