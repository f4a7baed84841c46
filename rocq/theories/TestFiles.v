(** TestFiles.v - the files of /repo/testcases, except hole.stl, as they are at the
    pinned commit. *)
From Verif Require Import Base.

Local Unset Implicit Arguments.
Local Open Scope string_scope.

Definition nl : ascii := "010"%char.
Fixpoint file_of (l : list string) : bytes := match l with [] => [] | [x] => B x | x :: r => (B x ++ nl :: file_of r)%list end.

(** testcases/ang.example *)
Definition ang_example : bytes := file_of [
  "load X = ""/dev/null"";";
  "page {";
  "  name = ""X"";";
  "  draw X {";
  "    scale = 1:2;";
  "    @[0, 0];";
  "    angle(apex=[0,0,0], at=[0.5,.25,0], from_dir=[1,0,0], to_dir=[1,+1,0]);";
  "    angle(apex=[1,0,0], at=[1.5,-.25,0], from_dir=[1,0,0], to_dir=[1,-1,0]);";
  "";
  "    angle(apex=[0,2,0], at=[0,2.25,0], from_dir=[1,0,0], to_dir=[-1,+1,0], fmt=""%.4f"");";
  "    angle(apex=[1,2,0], at=[1,1.75,0], to_dir=[1,0,0], from_dir=[-1,-1,0]);";
  "";
  "    // angle(apex=[0,-2,0], at=[0,-2.25,0], from_dir=[1,0,0], to_dir=[-1,0,0]);";
  "    // angle(apex=[1,-2,0], at=[1,-1.75,0], from_dir=[1,0,0], to_dir=[1,0,0]);";
  "";
  "  }";
  "}";
  ""].

(** testcases/bad_angle.case *)
Definition bad_angle_case : bytes := file_of [
  "load y = ""/dev/null"";";
  "";
  "page {";
  "  draw y {";
  "    angle();  // Missing";
  "    angle(         // Unexepcted properties for angle";
  "      at=[0,0,0],";
  "      at=[1,1,1],  // Duplicate angle property 'at'";
  "      foo=3        // \\bfoo\\b";
  "    );";
  "    ";
  "    angle(at=[1,1,1], apex=[0,0,0], from_dir=[1,0,0], to_dir=[0,1,0]);";
  "";
  "    angle(            apex=[0,0,0], from_dir=[1,0,0], to_dir=[0,1,0]);  // Missing 'at'";
  "    angle(at=[1,1,1],               from_dir=[1,0,0], to_dir=[0,1,0]);  // Missing 'apex'";
  "    angle(at=[1,1,1], apex=[0,0,0],                   to_dir=[0,1,0]);  // Missing 'from_{dir,point}'";
  "    angle(at=[1,1,1], apex=[0,0,0], from_dir=[1,0,0]                );  // Missing 'to_{dir,point}'";
  "";
  "    angle(at=[1,1,1], apex=[0,0,0], from_dir=[1,0,0], to_dir=[0,1,0],";
  "          fmt=1);  // argument.*is the wrong type";
  "    angle(at=[1,1,1], apex=[0,0,0], from_dir=[1,0,0], to_dir=[0,1,0],";
  "          fmt=""%n"");  // must be a '%f' type";
  "";
  "    angle(at=[1,1,1], apex=[0,0,0], from_point=[1,0,0], to_point=[0,1,0],";
  "          from_dir=[1,0,0],  // Both 'from_{dir,point}' provided";
  "	  to_dir=[0,1,0]     // Both 'to_{dir,point}' provided";
  "	  );";
  "	  ";
  "    angle(at=[1,1,1], apex=[0,0,0], from_point=[1,0,0], to_point=[-1,0,0]);  // Degenerate angle provided.";
  "";
  "  }";
  "";
  "}"].

(** testcases/bad_dia.case *)
Definition bad_dia_case : bytes := file_of [
  "load y = ""testcases/hole.stl"";";
  "";
  "page {";
  "  draw y {";
  "    dia(        // Unexepcted properties for dia";
  "        center=[1,1,0], at=[2,2,0], dir=[1,1,0],";
  "        x="""");  // x";
  "    dia();      // Missing 'at'";
  "    dia();      // Missing 'dir'";
  "    dia();      // Missing 'center'";
  "";
  "    dia(center=[1,1,0], at=[2,2,0], dir=[1,1,0],";
  "        fmt=1);  // argument.*is the wrong type";
  "    dia(center=[1,1,0], at=[2,2,0], dir=[1,1,0],";
  "        fmt=""%n"");  // must be a '%f' type";
  "  }";
  "";
  "}"].

(** testcases/bad_dim.case *)
Definition bad_dim_case : bytes := file_of [
  "load y = ""/dev/null"";";
  "";
  "page {";
  "  draw y {";
  "    dim();  // Missing";
  "    dim(                                                       // Unexepcted properties for dim";
  "      from=[0,-1,0], to=[0,+1,0], at=[0,0,1], dir=[0,1,0],";
  "      from=[0,0,0],                                            // Duplicate dim property 'from'";
  "      foo=3,                                                   // \\bfoo\\b";
  "      @[0,0]);                                                 // @";
  "";
  "    dim(               to=[0,+1,0], at=[0,0,1], dir=[0,1,0]);  // 'from'";
  "    dim(from=[0,-1,0],              at=[0,0,1], dir=[0,1,0]);  // 'to'";
  "    dim(from=[0,-1,0], to=[0,+1,0],             dir=[0,1,0]);  // 'at'";
  "    dim(from=[0,-1,0], to=[0,+1,0], at=[0,0,1]             );  // 'dir'";
  "";
  "    dim(from=[0,-1,0], to=[0,+1,0], at=[0,0,1],";
  "        dir=[0,0,0]);  // Dimention's 'dir' must not be the zero vector";
  "    dim(from=[0,-1,0], to=[0,+1,0], at=[0,0,1], dir=[0,1,0],";
  "        fmt=1);  // fmt argument for dim is the wrong type";
  "    dim(from=[0,-1,0], to=[0,+1,0], at=[0,0,1], dir=[0,1,0],";
  "        fmt=""%n"");  // must be a '%f' type";
  "    dim(from=[0,-1,0], to=[0,+1,0], at=[0,0,1],";
  "        dir=0);  // Dimention's 'dir' must not be the zero vector";
  "  }";
  "";
  "}"].

(** testcases/bad_draw.case *)
Definition bad_draw_case : bytes := file_of [
  "load y = ""/dev/null"";";
  "";
  "page {";
  "  draw X {}  // Unknown model 'X'";
  "  draw y {";
  "    scale = 1;  // Wrong type for scale";
  "  }";
  "  draw y {   // Unexepcted properties for draw";
  "    z = 1;   // \\bz\\b";
  "  }";
  "  draw y {";
  "    view = ""bob"";  // Unknown view name: 'bob'";
  "  }";
  "  draw y {";
  "    view = [0,0,0];  // Unexpect view type: stl2ps::Point";
  "  }";
  "  draw y {";
  "    @[0,0];";
  "    @[0,0];  // Duplicate draw property '@'";
  "    scale = 1:2;";
  "    scale = 1:3;  // Duplicate draw property 'scale'";
  "  }";
  "}"].

(** testcases/bad_fn.case *)
Definition bad_fn_case : bytes := file_of [
  "load y = ""/dev/null"";";
  "";
  "page {";
  "  draw y {";
  "    dim(";
  "      from=unknown([0,0,0]),  // Unknown function 'unknown'";
  "      to=[0,0,0], at=[0,0,0], dir=[0,1,0]";
  "      );";
  "  }";
  "";
  "}"].

(** testcases/bad_model.case *)
Definition bad_model_case : bytes := file_of [
  "load Foo = ""/dev/null"";";
  "load Foo = ""/dev/null"";  // Modele 'Foo' was already loaded";
  "load Bar = ""nothing"";    // Failed to read model Bar from 'nothing'";
  "load Baz = ""testcases/bad_model.case"";  // Failed to parse Baz.*bad_model";
  ""].

(** testcases/bad_page.case *)
Definition bad_page_case : bytes := file_of [
  "page {";
  "  name = 1;  // Expected document name to be a string";
  "}";
  "page {      // Unexepcted properties for page 2";
  "  bob = 3;  // bob";
  "  bill = 4; // bill";
  "  bill = 5; // Duplicate page property 'bill'";
  "}"].

(** testcases/bad_rad.case *)
Definition bad_rad_case : bytes := file_of [
  "load y = ""testcases/hole.stl"";";
  "";
  "page {";
  "  draw y {";
  "    rad(        // Unexepcted properties for rad";
  "        center=[1,1,0], at=[2,2,0], dir=[1,1,0],";
  "        x="""");  // x";
  "    rad();      // Missing 'at'";
  "    rad();      // Missing 'dir'";
  "    rad();      // Missing 'center'";
  "";
  "    rad(center=[1,1,0], at=[2,2,0], dir=[1,1,0],";
  "        fmt=1);  // argument.*is the wrong type";
  "    rad(center=[1,1,0], at=[2,2,0], dir=[1,1,0],";
  "        fmt=""%n"");  // must be a '%f' type";
  "  }";
  "";
  "}";
  ""].

(** testcases/bad_text.case *)
Definition bad_text_case : bytes := file_of [
  "page {";
  "  text [""hello world""]{   // Unexepcted properties for text";
  "    boo=2;                // boo";
  "  }";
  "  text [""hello world""]{";
  "    @[0,0];";
  "    @[0,1];  // Duplicate draw property '@'";
  "  }";
  "}"].

(** testcases/blank.example *)
Definition blank_example : bytes := file_of [
  ""].

(** testcases/case1.example *)
Definition case1_example : bytes := file_of [
  "load X = ""/dev/null"";";
  "load Y = ""testcases/cube.stl"";";
  "";
  "page {";
  "  name = ""X"";";
  "  text [";
  "    ""hello world\n""";
  "    ""This is a test\n""";
  "  ]{";
  "    @[1,1];";
  "  }";
  "  draw X {";
  "    scale = 1:2;";
  "    @[+3, -2];";
  "    view = [30, 60];";
  "    dim(from=[0,-0.490,0], to=[0,+0.490,0], at=[0,0,1.50], dir=[0,1,0]);";
  "  }";
  "}";
  "";
  "page {";
  "  name = ""Y"";";
  "  draw Y {";
  "    view = ""X+"";";
  "    dim(";
  "      from=near([-1,-1,-1]),";
  "      to=near([2,2,2]),";
  "      at=[0,0,2],";
  "      dir=[0,1,0]);";
  "  }";
  "}"].

(** testcases/cube.stl *)
Definition cube_stl : bytes := file_of [
  "solid OpenSCAD_Model";
  "  facet normal -0 0 1";
  "    outer loop";
  "      vertex 0 1 1";
  "      vertex 1 0 1";
  "      vertex 1 1 1";
  "    endloop";
  "  endfacet";
  "  facet normal 0 0 1";
  "    outer loop";
  "      vertex 1 0 1";
  "      vertex 0 1 1";
  "      vertex 0 0 1";
  "    endloop";
  "  endfacet";
  "  facet normal 0 0 -1";
  "    outer loop";
  "      vertex 0 0 0";
  "      vertex 1 1 0";
  "      vertex 1 0 0";
  "    endloop";
  "  endfacet";
  "  facet normal -0 0 -1";
  "    outer loop";
  "      vertex 1 1 0";
  "      vertex 0 0 0";
  "      vertex 0 1 0";
  "    endloop";
  "  endfacet";
  "  facet normal 0 -1 0";
  "    outer loop";
  "      vertex 0 0 0";
  "      vertex 1 0 1";
  "      vertex 0 0 1";
  "    endloop";
  "  endfacet";
  "  facet normal 0 -1 -0";
  "    outer loop";
  "      vertex 1 0 1";
  "      vertex 0 0 0";
  "      vertex 1 0 0";
  "    endloop";
  "  endfacet";
  "  facet normal 1 -0 0";
  "    outer loop";
  "      vertex 1 0 1";
  "      vertex 1 1 0";
  "      vertex 1 1 1";
  "    endloop";
  "  endfacet";
  "  facet normal 1 0 0";
  "    outer loop";
  "      vertex 1 1 0";
  "      vertex 1 0 1";
  "      vertex 1 0 0";
  "    endloop";
  "  endfacet";
  "  facet normal 0 1 -0";
  "    outer loop";
  "      vertex 1 1 0";
  "      vertex 0 1 1";
  "      vertex 1 1 1";
  "    endloop";
  "  endfacet";
  "  facet normal 0 1 0";
  "    outer loop";
  "      vertex 0 1 1";
  "      vertex 1 1 0";
  "      vertex 0 1 0";
  "    endloop";
  "  endfacet";
  "  facet normal -1 0 0";
  "    outer loop";
  "      vertex 0 0 0";
  "      vertex 0 1 1";
  "      vertex 0 1 0";
  "    endloop";
  "  endfacet";
  "  facet normal -1 -0 0";
  "    outer loop";
  "      vertex 0 1 1";
  "      vertex 0 0 0";
  "      vertex 0 0 1";
  "    endloop";
  "  endfacet";
  "endsolid OpenSCAD_Model";
  ""].

(** testcases/hole.example *)
Definition hole_example : bytes := file_of [
  "load Hole = ""testcases/hole.stl"";";
  "";
  "page {";
  "  name = ""Hole"";";
  "  draw Hole {";
  "    scale = 1:1;";
  "    @[0, 0];";
  "    ";
  "    dim(from=[0,0,0], to=center([2.5,2.5,0]), at=[1,-.5,0], dir=[1,0,0]);";
  "    dim(from=[0,0,0], to=center([2.5,2.5,0]), at=[-.75,1.25,0], dir=[0,1,0]);";
  "";
  "    dim(from=[0,0,0], to=[2.5,2.5,0], at=[1,-.75,0], dir=[1,0,0]);";
  "    dim(from=[0,0,0], to=[2.5,2.5,0], at=[-.5,1,0], dir=[0,1,0], fmt=""%.4f"");";
  "    ";
  "    dia(center=[2,3,0], at=[2.75,2,0], dir=[1,-.5,0], fmt=""%.4f"");";
  "    rad(center=[2,3,0], at=[3   ,4,0], dir=[1,1.5,0]);";
  "    ";
  "    rad(center=[1,1,0], at=[1.75,1.75,0], dir=[3,5,0], fmt=""%.4f"");";
  "  }";
  "}"].

(** testcases/lex_error.case *)
Definition lex_error_case : bytes := file_of [
  "&  // &"].

(** testcases/syntax_error.case *)
Definition syntax_error_case : bytes := file_of [
  "@  // syntax error"].
