(** Ps.v - model of ps.cc / ps.h: PostScript output. *)
From Verif Require Import Base Num Geo Env.

Section Ps.
  Context {A : Arith} {E : Env}.
  Local Open Scope num_scope.

  (** ps.h:40 *)
  Definition kFontSize : Z := 8.

  (** ps.h:42-50  ps::Text.  A default constructed at is (0, 0) because
      BUILD:65 has Eigen zero-initialise. *)
  Record text := Text { t_at : v2; t_str : bytes; t_center : bool; t_raw : bool }.

  (** stl-to-ps-impl.h:46-52  OutputPage *)
  Record opage := OPage { o_lines : list line; o_arcs : list arc; o_text : list text }.
  Definition opage_empty : opage := OPage [] [] [].

  (** ps.cc:129-150: escaping of a string unless raw. *)
  Fixpoint ps_escape (s : bytes) : bytes :=
    match s with
    | [] => []
    | c :: t =>
        if byte_eqb c "(" || byte_eqb c ")" || byte_eqb c BSLASH
        then BSLASH :: c :: ps_escape t else c :: ps_escape t
    end.

  (** ps.cc:129-156  TextToPs *)
  Definition text_to_ps1 (t : text) : bytes :=
    let s := if t_raw t then t_str t else ps_escape (t_str t) in
    B "newpath " ++ fmt_num (x2 (t_at t)) ++ B " " ++ fmt_num (y2 (t_at t)) ++ B " moveto (" ++ s
      ++ (if t_center t then B ") CenterText show" else B ") show") ++ [LF].
  Definition text_to_ps (l : list text) : bytes := concat (map text_to_ps1 l).

  (** ps.cc:113-118  LinesToPs *)
  Definition line_to_ps1 (l : line) : bytes :=
    B "newpath " ++ fmt_num (x2 (lo l)) ++ B " " ++ fmt_num (y2 (lo l)) ++ B " moveto "
      ++ fmt_num (x2 (lt_ l)) ++ B " " ++ fmt_num (y2 (lt_ l)) ++ B " lineto stroke" ++ [LF].
  Definition lines_to_ps (l : list line) : bytes := concat (map line_to_ps1 l).

  (** ps.cc:120-127  ArcToPs *)
  Definition deg (a : num) : num := a * of_Z 180 / PI.
  Definition arc_to_ps1 (a : arc) : bytes :=
    B "newpath " ++ fmt_num (x2 (ac a)) ++ B " " ++ fmt_num (y2 (ac a)) ++ B " "
      ++ fmt_num (ar a) ++ B " " ++ fmt_num (deg (astart a)) ++ B " " ++ fmt_num (deg (aend a))
      ++ B " arc stroke" ++ [LF].
  Definition arcs_to_ps (l : list arc) : bytes := concat (map arc_to_ps1 l).

  (** ps.cc:55-82  DocumentHeader *)
  Definition document_header (src : bytes) : bytes :=
    B "% generated by stl-to-ps
% Name: " ++ flag_name ++ B "
% Source: " ++ src ++ B "
% Time: " ++ now ++ B "
%
% File Header %%%%%%
/FontSize { " ++ dec_of_N (Z.to_N kFontSize) ++ B " } def  % a hack to allow reusing the font size

/CenterText {
  dup stringwidth
  pop     % throw away the ""height""
  -2 div  % half and negate

  currentfont begin FontBBox end  % - y_min - y_max
  4 1 roll pop pop pop 2 div      % midline in ""units""
  -1600 div FontSize mul          % convert to em

  rmoveto % offset by that
} def

/Courier findfont
FontSize scalefont setfont
% End File Header %%%%%%
" ++ [LF].

  (** ps.cc:84-111  PageHeader *)
  Definition page_header (num_ pages : nat) : bytes :=
    B "
%%%%%%%%% Start of page " ++ dec_of_nat num_ ++ B " of " ++ dec_of_nat pages ++ B "
<< /PageSize [792 612] >> setpagedevice % letter/landscape

.1 setlinewidth
% draw border
newpath 5 5 moveto 5 607 lineto 787 607 lineto 787 5 lineto 5 5 lineto stroke
" ++
    (let m := (if flag_timestamp then [now] else []) ++
              (if flag_number_pages
               then [B "page " ++ dec_of_nat num_ ++ B " of " ++ dec_of_nat pages] else []) in
     match m with
     | [] => []
     | _ => text_to_ps [Text (V2 (of_Z 7) (of_Z 7)) (join (B " ") m) false false]
     end).

  (** ps.cc:158-162  PageFooter *)
  Definition page_footer : bytes := B "
showpage %%%%%%%%%
".

  (** stl-to-ps.cc:94-106  RenderPages *)
  Definition render_page (total n : nat) (p : opage) : bytes :=
    page_header n total ++ text_to_ps (o_text p) ++ arcs_to_ps (o_arcs p)
      ++ lines_to_ps (o_lines p) ++ page_footer.
  Fixpoint render_from (total n : nat) (ps : list opage) : bytes :=
    match ps with
    | [] => []
    | p :: t => render_page total (S n) p ++ render_from total (S n) t
    end.
  Definition render_pages (src : bytes) (ps : list opage) : bytes :=
    document_header src ++ render_from (length ps) 0 ps.

  (** stl-to-ps.cc:79-92  AddHeader.  text_at is a float; text_at - 3 is
      computed in float. *)
  Definition text_at (name : bytes) : num :=
    to_f32 (of_Z 784 - of_Z (Z.of_nat (length name) * kFontSize) * of_dec 6 (-1)).
  Definition add_header (p : opage) (name : bytes) : opage :=
    let ta := text_at name in
    let l := to_f32 (ta - of_Z 3) in
    let h := of_Z (kFontSize + 8) in
    OPage (o_lines p ++ [Line (V2 l (of_Z 5)) (V2 l h); Line (V2 l h) (V2 (of_Z 787) h)])
          (o_arcs p)
          (o_text p ++ [Text (V2 ta (of_Z 8)) name false false]).
End Ps.
