# Formal model of bcsgh/stl-to-ps

## Approach

The code of /repo is modelled function by function as total Gallina functions in
`rocq/theories`.  Three ideas carry the development.

* **Arithmetic is a parameter.** All geometry is written against a record `Arith`
  of operations (add, mul, compare, sqrt, sin, ...).  Theorems about control flow
  and data structures quantify over *every* `Arith`, so they hold for IEEE doubles
  with rounding, NaN and infinities.  Theorems about geometry use the instance
  `XR`, real numbers extended with +inf, -inf and NaN (division by zero is never
  silently a number).  Theorems about rounding use the instance `F64`, IEEE
  binary64 from Flocq.
* **Abnormal ends are outcomes.** A failed CHECK, an uncaught exception and
  undefined behaviour (out of bounds, float to int overflow) are distinct
  constructors of the result type, never default values.
* **The environment is a parameter.** Number formatting, strtod/stof, the file
  system, flags and the clock are fields of a record `Env`; theorems quantify over
  it.

## Plan per property

* **C01 A failed conversion writes no PostScript.** Modelled in: Draw.v/Main.v: conversion as state machine returning (verdict, bytes written). Proof: case analysis over all exits of the conversion function.
* **C02 A successful conversion writes header plus every page, in order, numbered 1..n of n.** Modelled in: Ps.v, Draw.v: render_pages. Proof: induction over pages; output compared with an independently written block list.
* **C03 Drawings do not leak state into each other.** Modelled in: Draw.v visitor state record. Proof: equality of results for two arbitrary visitor states, by case analysis; append-only by induction over dims.
* **C04 Generating the pages of one parsed document twice gives the same pages.** Modelled in: Draw.v: page generation returns the mutated document. Proof: _refuted by a computed witness; _partial: documents whose points are all under identity views / hold no points.
* **C05 Within one conversion each coordinate triple is rotated into its view exactly once.** Modelled in: Draw.v. Proof: induction over the document: each point in the mutated document is the original or the original rotated once by its draw's view.
* **C06 Duplicate properties are always rejected.** Modelled in: Draw.v flatten. Proof: induction over property list; lifted through draws, pages and document.
* **C07 Unknown properties are always rejected.** Modelled in: Draw.v take/seen. Proof: invariant on the map of unconsumed properties; lifted to the document.
* **C08 Dimensions with a missing mandatory property are always rejected.** Modelled in: Draw.v. Proof: case analysis, lifted to the document.
* **C09 Unresolvable references are always rejected.** Modelled in: Draw.v load_files/visit_draw. Proof: induction over models/pages.
* **C10 No script can trip the placement type assertion.** Modelled in: Parser.v + Draw.v. Proof: invariant on parsed documents, then no Abort outcome of that kind.
* **C11 Model lookup order.** Modelled in: Draw.v load_files, file system oracle. Proof: induction over load paths against find-first spec.
* **C12 Relative model names stay inside the search directories.** Modelled in: Draw.v load_files. Proof: _refuted by witness with the default flag; _partial under a load path without empty entry.
* **C13 The STL reader accepts exactly the supported line language.** Modelled in: StlRead.v with the regular expressions of stl.cc run by a derivative engine. Proof: regex engine proved equal to denotational language; induction over lines.
* **C14 The STL reader builds one facet per facet block, in file order.** Modelled in: StlRead.v. Proof: induction over blocks.
* **C15 The STL reader never reads out of bounds.** Modelled in: StlRead.v, out-of-bounds is outcome UB. Proof: _refuted by witness; _partial under >=3 vertices before each endfacet.
* **C16 Facet normal and plane are geometrically right.** Modelled in: Stl.v mk_facet over extended reals. Proof: real algebra.
* **C17 Every view is a proper rotation.** Modelled in: Geo.v matrices. Proof: real algebra, sin^2+cos^2=1.
* **C18 Rotating a model keeps its facets consistent.** Modelled in: Stl.v rotate_facet. Proof: real algebra from orthogonality.
* **C19 Back-face culling keeps exactly the facets facing the viewer.** Modelled in: Stl.v cull loop (index based swap loop). Proof: loop invariant, any arithmetic.
* **C20 Limits is the tight bounding box.** Modelled in: Stl.v limits. Proof: induction; generic over order laws, instantiated for reals and IEEE doubles.
* **C21 @[x,y] centres the drawing at that place.** Modelled in: Draw.v visit_draw. Proof: real algebra on C20.
* **C22 Points is exactly the set of vertices.** Modelled in: Stl.v points, sorted-set insertion. Proof: induction under strict weak order.
* **C23 Every triangle side is indexed once and found again.** Modelled in: Stl.v index. Proof: invariants on the edge map; partition loop is a permutation.
* **C24 Exactly the smooth edges are suppressed.** Modelled in: Stl.v index. Proof: loop invariant of the partition.
* **C25 The edge crossing table never has duplicates.** Modelled in: Stl.v edge_crosses. Proof: the recorded pairs are NoDup, any arithmetic.
* **C26 The hidden point buffer never overflows.** Modelled in: Stl.v hidden_points with explicit 5-slot buffer; overflow is outcome UB. Proof: counting, any arithmetic.
* **C27 Hidden spans are never reversed.** Modelled in: Stl.v over IEEE binary64 (Flocq). Proof: invariants with order laws; bounds by rounding monotonicity.
* **C28 Generated lines are the edge minus its hidden spans.** Modelled in: Stl.v generate_lines over extended reals. Proof: induction over spans with parameter intervals.
* **C29 Hidden line removal never erases a visible point.** Modelled in: Stl.v to_lines over extended reals. Proof: convexity.
* **C30 Hidden line removal erases everything behind a facet.** Modelled in: Stl.v to_lines over extended reals. Proof: exit-point argument on the projected triangle.
* **C31 Point and line comparisons are strict orders.** Modelled in: Geo.v. Proof: generic over order laws, instantiated for reals and non-NaN doubles.
* **C32 near() returns the closest vertex in the view.** Modelled in: Ast.v near. Proof: induction.
* **C33 Closest returns the count closest points.** Modelled in: Ast.v closest. Proof: _refuted by witness; the exact number of points returned is proved when no points coincide (P_Pick.v closest_exact).
* **C34 Closest never returns a farther point in place of a closer one.** Modelled in: Ast.v closest. Proof: loop invariant.
* **C35 Between returns exactly the points in the open annulus.** Modelled in: Ast.v between. Proof: induction + real algebra.
* **C36 Circle fit is exact on circles.** Modelled in: Ast.v find_circle over extended reals. Proof: normal equations, Gram determinant non zero.
* **C37 Circle fit follows translation and scaling.** Modelled in: Ast.v find_circle. Proof: normal equations uniqueness.
* **C38 Degenerate circles are reported, not drawn.** Modelled in: Ast.v/Draw.v over IEEE doubles. Proof: NaN/inf case analysis.
* **C39 A dimension measures the distance along its direction, in every view.** Modelled in: Draw.v visit_dim over extended reals. Proof: orthogonal invariance of the dot product.
* **C40 An angle measures the angle between its sides, in every view and order.** Modelled in: Draw.v visit_angle over extended reals. Proof: orthogonal invariance; acos.
* **C41 Each dimension adds all of its parts or nothing.** Modelled in: Draw.v. Proof: case analysis, any arithmetic.
* **C42 Model geometry is mapped to the page by one scale and offset.** Modelled in: Draw.v add_lines/arcs/text. Proof: induction, any arithmetic.
* **C43 Text survives PostScript quoting.** Modelled in: Ps.v text_to_ps, PsSpec.v PostScript string reader. Proof: induction over the string with nesting depth; CR excluded and shown to break it.
* **C44 Diameter labels are well formed PostScript strings.** Modelled in: Draw.v render_dia. Proof: _refuted by witness; _partial for formatted values without ( ) \.
* **C45 User names stay inside header comments.** Modelled in: Ps.v document_header. Proof: _refuted by witness; _partial for names without line breaks.
* **C46 Multi-line text layout.** Modelled in: Draw.v visit_text. Proof: induction over split lines.
* **C47 Page title box.** Modelled in: Draw.v add_header. Proof: any arithmetic for shape; float bounds by finite sweep over the 162 lengths in binary64/binary32.
* **C48 Successful output contains only finite numbers.** Modelled in: Draw.v. Proof: _refuted by witnesses (scale 1:0; a dim seen end on at scale -1:1, ExNeg.v); _partial in exact arithmetic for positive scales, and in doubles (with overflow) for drawings without dimensions at any scale with a denominator other than 0, and for drawings with dimensions of every kind at positive scales when circles and directions stay within stated powers of two (P_FinDim64.v, P_FinDim2.v, P_FinDim3.v: every intermediate number of draw_dim, draw_angle, draw_dia and draw_rad is bounded by a power of two).
* **C49 String literals are decoded exactly.** Modelled in: Ast.v new_quote as index loop with bounds checks. Proof: induction; out of bounds is an outcome.
* **C50 No part of a string literal is lost.** Modelled in: Lexer.v. Proof: _refuted by NUL witness, _partial for NUL free literals.
* **C51 The lexer consumes every input byte exactly once.** Modelled in: Lexer.v: flex engine on the rule table of lexer.l. Proof: induction on the remaining input.
* **C52 Longest match and keywords.** Modelled in: Lexer.v. Proof: regex engine.
* **C53 The parser accepts exactly the grammar and is unambiguous.** Modelled in: Parser.v predictive parser; Grammar.v inductive derivations. Proof: soundness/completeness by mutual induction.
* **C54 Layout and comments do not matter.** Modelled in: Lexer.v+Parser.v. Proof: lexing of separators; parser commutes with relocation.
* **C55 A printed document parses back.** Modelled in: Lexer.v+Parser.v+printer. Proof: round trip by induction.
* **C56 Parsing always returns.** Modelled in: Lexer.v/Parser.v: exception and UB outcomes. Proof: _refuted by witness; _partial for in-range literals.
* **C57 A scale a:b magnifies by a/b.** Modelled in: Parser.v/Draw.v. Proof: _refuted for fractional literals; _partial for integers.
* **C58 Every failed conversion is explained.** Modelled in: Draw.v log. Proof: _refuted by witness; _partial when every near/center succeeds.
* **C59 All pages are checked even after an error.** Modelled in: Draw.v log. Proof: induction over pages.
* **C60 Exit status.** Modelled in: Main.v. Proof: case analysis.
* **C61 Rotation never produces NaN.** Modelled in: NumF64.v. Proof: Flocq rounding bounds.
* **C62 Omitting @ equals @[0,0].** Modelled in: Draw.v. Proof: proved for text; _refuted for draw.
* **C63 Why a conversion ends the process.** Modelled in: every abort of Parser.v, StlRead.v, Stl.v, Draw.v. Proof: abort lemmas per function, composed.
* **C64 When no conversion ends the process.** Modelled in: NumF64.v and all of C63. Proof: C63 plus the rounding bounds of C61.
* **C65 What dia and rad print.** Modelled in: Geo.v fit_circle, Draw.v. Proof: exact arithmetic, uniqueness of the least squares circle.
* **C66 Where a dim is drawn.** Modelled in: Draw.v draw_dim. Proof: exact arithmetic, every intermediate value named, then vector algebra.
* **C67 Where a dia or rad is drawn.** Modelled in: Draw.v draw_dia, draw_rad. Proof: as C66; the reach of the leader _refuted by witness, _partial for labels outside.
* **C68 Where an angle is drawn.** Modelled in: Draw.v draw_angle. Proof: as C66; arrow heads on the arc _refuted for sides that leave the page, _partial for sides in the page.
* **C69 Exactly the valid scripts convert.** Modelled in: Main.v, Draw.v, ValidSpec.v. Proof: success lemmas of C01-C10 in one direction; no abort (C63) and no failure in the other.
* **C70 A run never changes its inputs.** Modelled in: Main.v main. Proof: _refuted when the output path is an input path; _partial for every other file.
* **C71 A run that cannot read its script leaves the old output alone.** Modelled in: Main.v main. Proof: _refuted by witness (the output is opened and truncated first); _partial when the output cannot be opened.
* **C72 The order of loads and of properties does not matter.** Modelled in: Main.v, Draw.v, ShuffleSpec.v. Proof: the validity and page specifications of C69 and C43 do not depend on the order.
* **C73 Views show exactly the outline that is not hidden.** Modelled in: Stl.v index, edge_crosses, to_lines, gen_edge; PictSpec.v. Proof: exact arithmetic; the edge table, the hidden points and the cut intervals are each characterised, then put together; the picture is unique.
* **C74 Nothing behind a facet is drawn.** Modelled in: as C73. Proof: _refuted by an edge that pierces a facet; _partial for edges that do not meet the inside of the facet.
* **C75 The order of facets does not matter.** Modelled in: as C73. Proof: the picture specification does not depend on the order.
* **C76 Where a model sits and what its unit is do not matter.** Modelled in: as C73, Draw.v visit_draw. Proof: the picture specification commutes with moving and scaling; the bounds move along, so the offset undoes the move.
* **C77 A drawing stays inside its box.** Modelled in: Draw.v visit_draw, Stl.v limits. Proof: exact arithmetic; every line end lies between two corners, the offset centres the bounds.
* **C78 Named views show the axes as documented, without rounding.** Modelled in: Geo.v, Ast.v matrix_by_name, Stl.v rotate. Proof: binary64; each product is by 0, 1 or -1 and each sum has one term that is not zero, so nothing is rounded; the specification names the axes.
* **C79 Angle views turn about z and then tilt.** Modelled in: Geo.v geo_rotate. Proof: exact arithmetic; the matrix is the product of the two turns.
* **C80 Names of models, their paths and unused loads do not matter.** Modelled in: Main.v script_to_ps, Draw.v load_files, visit_draw. Proof: simulation between the two runs (P_Alike.v).
* **C81 A page's output depends only on the page and the models it draws.** Modelled in: Draw.v gen_page, Ps.v print_page. Proof: the same simulation, page by page.
* **C82 Syntax errors are reported at the first token that cannot continue any valid script.** Modelled in: Lexer.v, Parser.v; specification SyntaxSpec.v (the grammar as a language of token kinds). Proof: every parsing function is local (its verdict depends only on what it read plus one token), complete for its language, and stops on a token only if no sentence goes on with it; by combinators over the parsing functions.
* **C83 Every error message is true and names the line of what it is about.** Modelled in: Draw.v (err, flatten, unexpected, the visit functions, load_files), Main.v; specification MsgSpec.v (what each message claims, in terms of the document and the files; where each thing starts). Proof: along the visit functions, for a predicate on messages closed under the specification; locations by induction over the grammar of Grammar.v. Two messages that can be false are refuted with witnesses; all others are proved true.
* **C84 The defects of every block are reported in one run.** Modelled in: Draw.v (flatten, the visit functions, gen_pages, load_files), Main.v; specification SaySpec.v (must_say: defect, text and place, from the document and the files alone). Proof: each visit function logs the message and later ones only append (P_Say.v, P_Say2.v, P_Say3.v); loads by induction with the set of names taken so far as invariant.
* **C85 Numbers of scripts are singles.** Modelled in: Lexer.v (tok_of), Parser.v (scale), StlRead.v; specification TextSpec.v (reads: the value of a decimal numeral; text_std: what C, RE2 and absl promise about conversions). Proof: every number token comes from a scanned numeral, the grammar puts only number tokens into documents, STL reading keeps only numbers of vertex lines; error bounds from Flocq's FLT rounding.
* **C86 Output numbers to six figures.** Modelled in: Ps.v; specification TextSpec.v (page_tokens: the operand positions) over PsSpec.v's PostScript reader. Proof: the token programs of C43, with the six-figure rule for each printed number; a nearest six-figure decimal is within 5e-6 relative.
* **C87 Labels show the measured value.** Modelled in: Draw.v (visit_dim, visit_angle, visit_dia, visit_rad); specification TextSpec.v (fixed, decimal_for, format_digits), DimSpec.v. Proof: the values of C39, C40 and C65 through the rule for %.nf; a nearest n-place decimal is within half a unit.
* **C88 Rounding does not show in dims.** Modelled in: Draw.v (visit_dim, draw_dim), Geo.v, NumF64.v; specification ErrSpec.v (close, decimal_within). Proof: forward error analysis over Flocq's rounding: every intermediate result is within a computed distance of its exact counterpart under one exact rotation (P_Err.v to P_Err4.v).
* **C89 Rounding in angles.** Modelled in: Draw.v (visit_angle, draw_angle); specification ErrSpec.v (side64, angle_between). Proof: the error of the two normalisations and of the scalar product, the slope of acos away from 1 and -1, bounds on pi from Machin's formula (P_Pi.v, P_Err5.v). Refuted where sides have one direction: the degeneracy test compares rounded numbers with 0.
* **C90 Ties in sorting do not change the drawing.** Modelled in: Base.v sorter, std_sort; SortSpec.v (line generation with another implementation). Proof: two sorted permutations of points with injective keys are equal; swapping spans with equal starts leaves the cut edge unchanged.
* **C91 Rounding does not move points in a view.** Modelled in: Geo.v geo_rotate, Ast.v matrix_by_name, matrix_by_ang, NumF64.v; specification FollowSpec.v (sees, radians with the true pi), ViewSpec.v (look, spin, tilt). Proof: pi to 2^-52 by Machin's series, sine and cosine change by at most the change of the angle, then the error analysis of P_Err.v.
* **C92 Every line lies along a side of a facet.** Modelled in: Stl.v to_lines, cross_at, rotate; specification FollowSpec.v follows. Proof: in any arithmetic the ends of a line are ends of its edge or crossing points of that edge; a crossing point is origin + fraction * direction with a fraction between 0 and 1 even in doubles, so it is within a few roundings of the segment.
* **C93 The generated parser decides the grammar.** Modelled in: Lalr.v (construction of LALR(1) tables), LrParser.v (productions, semantic values and actions of parser.y, the loop of lalr1.cc with default reductions, rejected tokens and exceptions); specification Grammar.v, SyntaxSpec.v. Proof: the tables are computed in the kernel, without conflicts; each function of the predictive parser is simulated by the tables in continuation passing style, by induction over tokens, states and fuel (P_Lr.v); with C53 and C82 this gives acceptance and the place of errors. LalrSpec.v defines LR(1) items valid after a sequence of symbols without any table; P_Lalr.v proves that the tables can read exactly the sequences with a valid item, that two sequences lead to one state exactly if the same items are valid, and that the lookaheads are those of the valid items: first sets and a set of 847 facts are computed, checked to be closed, and proved sound by induction over how they were made and complete by induction over valid items.
* **C94 The parser neither leaks an object nor deletes one twice.** Modelled in: LrHeap.v (what each action does to the objects of its operands, %destructor, the clean-up of lalr1.cc); specification HeapSpec.v. Proof: the symbols on the stack before a reduction are those of the production (checked backwards through the tables and lifted to every stack), so each operand with an object has exactly one fate; an invariant over all steps counts every object once, a second one relates objects to values (P_LrHeap.v).
* **C95 Lines are on the paper where the view has the sides of facets.** Modelled in: Draw.v, Ps.v with the doubles of NumF64.v; specification PaperSpec.v (the plan of a drawing, the frame around the facets, the place on the page), written over the reals. Proof: the rounding of one coordinate through scaling and shifting (P_Paper.v: place_one), the box of rounded points against the box of real ones, then C91/C92 for the view; the words of the output through C86/C87 (P_Paper2.v).
* **C96 A successful run has written the complete drawing.** Modelled in: MainIo.v (main with a device that takes only so many bytes). False; refuted by the example script. Proof of the partial: case analysis of main (P_MainIo.v).
* **C97 A model file that was cut short is rejected.** Modelled in: StlRead.v. False; refuted by a text cut at a line end. Proof of the partial: the lines of a beginning are lines of the text except for a cut last one, and a line that begins with an endfacet line says endfacet or nothing (P_Cut.v).
* **C98 Every lookup in an ordered container is one its order can handle.** Modelled in: DrawLk.v (Draw.v with a check before each lookup). False; refuted by a model far from the origin. Proof of the partials: a simulation between the runs with and without checks (P_Lookup.v), and that all values compared are numbers (P_Lookup2.v, and P_Lookup4.v when near() is asked for a center()).
* **C99 The Bazel rule finds its models, and where Bazel puts them does not show.** Modelled in: Bazel.v (the action of rule.bzl:30-51 and the flags it passes) on top of Main.v. Proof: the search over load paths meets the input below its root first because a sandbox holds nothing else (P_Bazel.v); runs with the same script and the same models end alike.
* **C100 A drawing is at most quadratically larger than its models.** Modelled in: Stl.v, Draw.v. Proof: induction over facets (three sides each), over the facets that may hide a side (one span each), over spans (one line each), dimensions and items (P_Size.v).
* **C101 Measured circles in double precision.** Modelled in: Ast.v (inv3, find_circle, closest, between, fit_circle), Draw.v. Specification: CircSpec.v (sums in any order, areas of triangles). Refuted: far from the origin the inverse of the matrix loses the radius; sums of whole numbers are exact in any order, so the matrix is known and the rest is computed (ExCirc64.v). Partial: forward error analysis with the factor 1/det kept common to all entries, the sums by induction over the tree of additions (P_Circ64.v), the points the first fit keeps (P_Ring64.v), the labels (P_CircLabel.v).
* **C102 The parser's stack grows with open parentheses only.** Modelled in: LrParser.v (the parser driven by its tables). Specification: StackSpec.v (open parentheses of a list of tokens, functions applied to a point). Proof: the stack is a path of the table; each state has a rank that grows along every step of a path except that a parenthesis counts for two (computed, P_LrDepth.v); a reduction removes as many opening as closing parentheses. For scripts the grammar bounds the open parentheses.
* **C103 Parsing takes linear time.** Modelled in: LrParser.v and Lexer.v. Proof (P_LrTime.v): every token pays for its shift and for one reduction; nonterminals carry what is left or owe one. By computation every rule leaves at least one less than it finds, and no path of the table owes more than two. A title of many strings shows that two per token are needed (P_LrSharp.v).
* **C104 A document is no larger than its script.** Modelled in: Parser.v, Grammar.v, Lexer.v. Proof (P_Weight.v): by induction over derivations every nonterminal has at least as many tokens as its parts need; a page with one dim needs all of its 14 tokens, so any number of them reaches the bound.

## Trusted base

Coq 8.16.1's kernel, and the axioms listed at the end of this file for each
theorem.  All are from the standard library: the two decidability axioms behind
its real numbers (`ClassicalDedekindReals.sig_not_dec`, `sig_forall_dec`),
`functional_extensionality_dep` and `Classical_Prop.classic`.  No file of this
development declares an axiom, and Flocq adds none of its own.

Beyond Coq, a reader has to accept that the model says what the code says.

### What is modelled

| File of /repo/stl-to-ps | Model | Extent |
|---|---|---|
| geo.h, geo.cc | Geo.v | all functions |
| stl.h, stl.cc | Stl.v, StlRead.v, Regex.v | all functions: the reader with its regular expressions, facets, rotation, culling, edge index, crossings, hidden points, line generation, limits, points |
| center.h, center.cc | Ast.v | FindCircle, Closest, Between |
| ast.h, ast.cc | Ast.v, Lexer.v | the document, point functions near() and center(), named views, NewQuote |
| lexer.l | Lexer.v | the whole rule table, run by a longest match engine |
| parser.y, parser.cc, parser_support.* | Parser.v, Grammar.v | the whole grammar with its actions, error locations |
| ps.h, ps.cc | Ps.v | all functions: header, page header, title box, lines, arcs, texts, quoting |
| stl-to-ps.h, stl-to-ps-impl.h, stl-to-ps.cc | Draw.v, DrawLk.v, Main.v | all functions: model loading, properties, draws, dim, dia, rad, angle, text, page generation, ScriptToPS |
| stl-to-ps-main.cc | Main.v | main: arguments as given, order of opening files, exit status |
| eigen_wrap.h, BUILD:65 | Num.v, Geo.v | the operations used; vectors start as zero |
| rule.bzl | Bazel.v | the action that runs stl-to-ps (30-51); not ps2pdf, nor the rule for .scad files |

Abnormal ends are outcomes: `ACheck` (a failed CHECK), `AThrow` (an exception
nobody catches) and `AUB` (out of bounds, null dereference, float to int
overflow).

### The project's own tests, run on the model

Run.v is an arithmetic (`F64` with a libm that computes) and an environment
that compute, so the model can be run inside Coq.  TestUnit.v replays the checks of
center_test.cc, geo_test.cc, ast_test.cc, stl_test.cc, ps_test.cc and
stl-to-ps_lib_test.cc; TestCases.v replays testcases/*.case and *.example with
a model of input_test.sh, hole.stl replaced by a coarser solid.  All of them
pass.  These are tests that the model says what the code says, not proofs; no
theorem uses them.  The same model extracted to OCaml outside this repository
also passes with the original hole.stl.

### What is not modelled, or taken on trust

* LOG(INFO) output; only warnings and errors are diagnostics.
* Memory: allocation failure; ownership and lifetimes except in the parser (C94).
* Integer overflow of sizes beyond 2^31 and of line numbers.
* Writing: after a successful open every write succeeds, except in MainIo.v (C96), where a device takes only a number of bytes.  Two different paths are two different files, so links are not modelled.  That opening a directory fails is up to the file oracle.
* Parsing of the command line (absl flags): the flags are fields of `Env`.  In Bazel.v the flag of a name gets the rest of the argument.
* Bazel: that an action sees exactly its declared inputs, and that a list of load paths holds no comma.  Two runs are compared at the same time of day.
* bison: that it computes LALR(1) tables and runs them as LrParser.v says (C93 proves that those of Lalr.v are the LALR(1) tables of the grammar, and the rest).  A byte the lexer rejects (token 256) counts as one syntax error and leads to no default reduction, as in bison 3.6 and later.
* flex: that it matches the longest rule, the first among equals.
* RE2: full match semantics; '.' stands for one UTF-8 sequence other than LF, with the byte ranges RE2 compiles it to (StlRead.v).
* std::sort, std::map, std::set: an order that is not a strict weak order on the elements used is undefined behaviour, a separate outcome.  The argument of std::set::find in near() (ast.cc:60) and the keys of the multimap in Closest (ast.cc:82-108) are checked only in DrawLk.v, a copy of the model of drawing with these checks (C98); the sums in the distances are taken from left to right.  Any implementation of std::sort that permutes its input into an order without descents is allowed: it is a field of `Arith`, an insertion sort in `XR` (C90 shows that the choice does not matter there).
* Floating point: double operations are IEEE 754 round to nearest even, float as binary32; no fused multiply-add, no extended precision.  The sum of three products in Eigen may be associated either way (`assoc`).  sin, cos, acos and atan2 are arbitrary functions in `F64` (`libm`), with stated hypotheses where needed, and the real functions in `XR`.
* FindCircle's sums over the points have an order Eigen does not fix; theorems about it use exact arithmetic or, in doubles, all orders (C101). The sum of three products in the 3x3 determinant and in a row of three has both orders.
* Number printing, printf formats, stof and RE2's number conversion are arbitrary functions (`Env`) with stated hypotheses where needed.
* `XR` has one zero and no rounding; `to_f32` is the identity there.  PI is the decimal in geo.h, not the number.
* The PostScript reader of the specification (PsSpec.v) knows comments, words, numbers and (...) strings; hexadecimal strings, immediately evaluated names and dictionaries do not occur in the output.


## Status of the properties

104 properties, 79 proved as stated, 25 with a part that is false or missing (MANIFEST.json has the theorems):

* **C04** False as stated: the points of dimensions are rotated in place, so a second generation rotates them again (witness: a dim in view X+). Proved when every triple is left alone by the view of its draw.
* **C12** False as stated: the default --load_path is empty and its one entry makes '/name' a candidate, and '..' leaves the directories. Proved when no entry is empty and no name has a '..' component.
* **C15** False as stated: 'facet normal 0 0 1' followed by 'endfacet' indexes an empty vector (witness). Proved: reading leaves bounds exactly when a facet with a non-zero normal is closed before its third vertex, and the text up to there is supported.
* **C32** False as stated: when every squared distance reaches DBL_MAX the result is the origin (witness: vertices at 1e200). Proved: a vertex is returned unchanged; otherwise the nearest projection when no distance is NaN and one is below DBL_MAX. Failure is characterised exactly.
* **C33** False as stated: a point farther than the last kept one is dropped even when the list is not full (witness: [1,0],[2,0], count 2). Proved for lists sorted far to near without coinciding points. Also proved: for points none of which coincide, exactly min(count, number of points not farther than the first vertex) points are returned.
* **C43** False for a carriage return, which PostScript reads as a line feed inside a string; proved for every other string, for one item amid any program and for whole outputs.
* **C44** False when fmt has an unbalanced parenthesis or a trailing backslash (the label is written raw); proved: the label is a well formed string exactly when the formatted number is.
* **C45** False for names with a line end; proved for all other names.
* **C48** False: scale = 1:0, and a dia or rad whose direction is the viewing direction, print nan. Proved in exact arithmetic for positive scales and directions not seen end on: every number of every page is a real number and every number written is the print of one. Proved in doubles, with overflow and rounding, for drawings without dimensions at any scale a:b with b not 0, with vertices up to 2^500. Proved in doubles for drawings with linear dimensions at positive scales, vertices up to 2^400 and points not given by center (C48_lengths_in_doubles_partial), and with dimensions of every kind and center when the circles used are within 2^390, the directions of angles, dias and rads are not below 2^-390 on every axis, and atan2 of bounded numbers is bounded (C48_dims_in_doubles_partial). The remaining case, dimensions at negative scales, is false: a dim seen end on at scale -1:1 prints nan (C48_negative_scale_refuted).
* **C50** False as stated: a NUL byte inside a literal makes NewQuote (called with yytext as a C string) lose the text. Proved for every literal without NUL bytes.
* **C56** False as stated: std::stof throws on a number beyond float range and a scale beyond int range is an undefined float to int conversion; both witnesses are evaluated. Proved for scripts all of whose numbers fit.
* **C57** False as stated: the numbers of a scale are converted to int, so 1.5:1 draws like 1:1. Proved with the integer parts: the numbers stored are the conversions of the numbers written; in exact arithmetic all lines, strokes and texts of the drawing are the view's lines scaled by 72*a/b plus one offset; in the program's own arithmetic the factor used is within 2^-23 of 72*a/b, relative, and equal to it when that is a float.
* **C58** False as stated: near() on an empty model and center() that cannot fit fail without a message. Proved: a failed conversion has a located diagnostic or uses such a function.
* **C62** False for draw (no @ puts it at the page corner, @[0,0] at the page centre); proved for text.
* **C67** Exact arithmetic. The last sentence is false when the label is inside the circle and more than the scale (not the radius) away from the centre: the leader then stops at the label (witness). Proved when every crossing of the label's height farther than the scale is outside the circle.
* **C68** Exact arithmetic. The last clause is false for sides that are not parallel to the page: the heads are then placed at foreshortened radius, inside the arc (witness). Proved for sides in the page, where all six lines are given explicitly.
* **C70** False when the output path is also the script path; proved for every other file.
* **C71** False: the output is truncated before the script is opened; proved when the output cannot be opened.
* **C74** False: an edge that pierces a facet from the front is drawn behind it as well (witness). Proved for edges that do not meet the inside of the facet.
* **C83** Every arithmetic and environment. Two messages can be false (both refuted with witnesses): a repeated property of a text block is called a draw property, and a dir that has no value is called the zero vector in addition to the true message. The partial theorem says every message is true or one of these two.
* **C89** Doubles, both associations. Partial: sides within about 2^-13 of one direction are left out, since the arc cosine loses all precision there; the claim that sides in one direction are never labelled is refuted (from_dir [27 10 1], to_dir [270 100 10] in view Z+ give a label with a NaN).
* **C96** Refuted (witness: the example script with room for 100 bytes): main never looks at the state of the stream. Partial: status and messages do not depend on the device, the file is the beginning of the drawing that fits, and is complete exactly if it fits. The device is modelled as a number of bytes that reach the file (MainIo.v).
* **C97** Refuted (witness: a text cut after its fifth line is read as a model without facets). Partial: whatever the cut, the rest is refused or read as a beginning of the facets and messages of the complete text; no out-of-bounds access.
* **C98** Refuted (witness: two triangles near (48000000, 48000000); near(center(...)) looks up a point whose coordinates are not numbers). Partial: with the checks added the program behaves as without them or ends at a check, for every arithmetic; in exact arithmetic no check ends it; nor in doubles when models and points are of moderate size and near() is not applied to a center(), or when it is and no circle fitted to a drawn model has a center that is not a number. Missing: which models give such centers in doubles. C98_what_is_checked and C98_fits_are_checked: the checks are exactly that every lookup and insertion is ordered (specification ordered_lookups in LookSpec.v).
* **C101** Doubles, both associations, sums in any order. The full claim is refuted: 20 points exactly on a circle of radius 25 around (5000, 5000) give a radius below 24.9 whatever the order, and the label of rad says less than 24.91. Partial: the error is bounded by how well the points fix the circle (sum of the squared areas of their triangles), for points none of which is between a sixteenth and an eighth of the radius off the first circle.

Seeded faults: seeded/LOG.jsonl lists each fault tried on a copy of the model and the theorems whose proofs it broke.


## Assumptions of each theorem

Closed under the global context (119):
C01_failed_conversion_writes_nothing, C02_output_is_header_and_numbered_pages, C03_items_do_not_influence_each_other, C04_generating_twice_partial, C05_triples_rotated_at_most_once, C05_used_values_rotated_once, C06_duplicate_properties_rejected, C07_unknown_properties_rejected, C08_incomplete_dimensions_rejected, C09_duplicate_model_rejected, C09_unknown_model_rejected, C09_unknown_view_rejected, C09_unreadable_model_rejected, C100_lines_of_a_view, C100_output_is_bounded, C100_pages_are_bounded, C101_the_order_of_the_model, C102_nesting_takes_stack, C102_stack_follows_parentheses, C102_stack_of_scripts, C103_some_scripts_take_two, C103_two_steps_per_byte, C103_two_steps_per_token, C104_bound_is_reached, C104_document_fits_its_script, C10_no_script_trips_the_assertion, C10_place_is_always_a_location, C11_models_are_what_their_sources_resolve_to, C11_only_the_resolved_files_matter, C11_resolution_is_unique, C12_relative_names_stay_inside_partial, C13_exactly_the_supported_lines_are_read, C14_one_facet_per_block_in_order, C15_out_of_bounds_only_for_short_facets_partial, C19_culling_keeps_exactly_the_front_facets, C20_limits_is_the_tight_box, C22_points_is_the_vertex_set, C23_every_side_is_indexed_once, C24_smooth_edges_are_suppressed, C25_crossings_are_recorded_once, C26_at_most_five_hidden_points, C26_indices_stay_in_range, C31_comparisons_are_strict_weak_orders, C32_near_fails_only_then, C32_near_is_nearest_partial, C32_near_of_a_vertex, C32_near_uses_its_argument, C33_closest_returns_count_points_partial, C33_number_of_points_partial, C34_closest_never_prefers_a_farther_point, C36_few_points_fail, C41_dimension_adds_all_parts_or_nothing, C42_drawing_is_scaled_and_shifted, C43_quoted_strings_read_back_partial, C43_text_survives_quoting_partial, C43_whole_output_reads_back_partial, C44_diameter_labels_are_well_formed_partial, C45_names_stay_in_comments_partial, C49_decoding_stays_inside, C49_scanning_never_fails, C49_spelled_strings_are_read_back, C50_no_part_is_lost_partial, C51_every_byte_once, C51_tokens_are_the_pieces_that_are_not_skipped, C52_identifiers_are_not_keywords, C52_keywords_are_whole_words, C53_accepted_iff_derivable, C53_token_sequences, C53_unambiguous, C54_accepted_scripts_are_arranged_tokens, C54_layout_does_not_change_the_output, C54_layout_does_not_matter, C55_parsed_documents_can_be_printed, C55_printed_documents_parse_back, C55_separated_by_spaces, C56_parsing_returns_partial, C57_scale_as_written_partial, C58_failures_are_explained_partial, C58_only_functions_are_mute_partial, C59_diagnostics_of_all_pages_in_order, C59_success_means_every_item_succeeded, C60_exit_status_and_output_file, C62_omitted_place_of_text_partial, C63_complete_list, C63_reasons_to_end, C69_exactly_the_valid_scripts_convert, C70_inputs_are_never_changed_partial, C71_a_missing_script_keeps_the_output_partial, C72_order_of_loads_and_properties, C80_names_and_paths_do_not_matter, C81_pages_stand_alone, C82_errors_at_the_first_wrong_token, C82_what_a_wrong_script_prints, C83_messages_are_true_partial, C83_messages_name_the_line, C83_messages_only_about_parsed_scripts, C84_defects_are_reported, C84_files_with_defects_are_not_converted, C93_lookaheads, C93_no_conflicts, C93_reasons_to_die, C93_same_as_the_model, C93_states, C93_symbols_read, C93_tables_accept_the_grammar, C93_tables_always_end, C93_tables_stop_at_the_first_wrong_token, C94_deleted_once_or_kept, C94_objects_do_not_matter, C94_one_owner_at_every_moment, C94_the_document_has_its_objects, C96_output_is_a_beginning_partial, C97_cut_models_are_beginnings_partial, C98_checks_only_end_partial, C98_fits_are_checked, C98_what_is_checked, C99_inputs_are_found, C99_only_the_output_is_written, C99_roots_do_not_matter.

Uses `sig_forall_dec`, `functional_extensionality_dep` (1):
C73_there_is_one_picture.

Uses `sig_forall_dec`, `sig_not_dec`, `functional_extensionality_dep` (1):
C35_in_ring_means_strictly_between.

Uses `sig_forall_dec`, `sig_not_dec`, `classic`, `functional_extensionality_dep` (111):
C04_generating_twice_refuted, C101_dia_labels_partial, C101_fit_is_close_partial, C101_found_radius_refuted, C101_measured_circle_partial, C101_rad_label_refuted, C101_rad_labels_partial, C12_relative_names_stay_inside_refuted, C15_reads_in_bounds_refuted, C16_facet_normal_and_plane, C17_angle_views_are_rotations, C17_named_views_are_rotations, C18_rotating_keeps_facets_proper, C21_place_is_the_centre, C27_line_generation_never_aborts, C28_lines_are_the_edge_minus_its_hidden_spans, C29_only_covered_points_are_erased, C30_everything_behind_a_facet_is_erased, C31_doubles_are_ordered, C32_near_is_nearest_refuted, C33_closest_returns_count_points_refuted, C35_between_is_the_open_ring, C36_fit_is_exact_on_circles, C36_fit_is_the_least_squares_circle, C37_fit_follows_every_rigid_motion, C37_fit_follows_scaling, C37_fit_follows_translation, C38_center_needs_a_finite_first_fit, C38_dia_and_rad_need_a_finite_first_fit, C38_vertices_on_a_line_are_rejected, C39_dim_prints_the_length_along_its_direction, C40_angle_prints_the_angle_between_its_sides, C40_exchanging_the_sides_changes_nothing, C43_text_survives_quoting_refuted, C44_diameter_labels_are_well_formed_refuted, C45_names_stay_in_comments_refuted, C46_lines_of_a_text, C47_title_and_its_box_come_last, C48_dims_in_doubles_partial, C48_finite_doubles_partial, C48_lengths_in_doubles_partial, C48_negative_scale_refuted, C48_only_finite_numbers_partial, C48_only_finite_numbers_refuted, C50_no_part_is_lost_refuted, C56_parsing_returns_refuted, C57_scale_in_floats_partial, C57_scale_magnifies_partial, C57_scale_magnifies_refuted, C58_failures_are_explained_refuted, C61_finite_models_can_be_rotated, C61_rotation_gives_no_nan, C61_views_have_entries_up_to_one, C62_omitted_place_refuted, C64_conversions_end, C65_center_is_the_centre, C65_dia_prints_twice_the_radius, C65_rad_prints_the_radius, C66_extension_lines_are_upright, C66_where_a_dim_is_drawn, C67_dia_leader_reaches_the_rim_partial, C67_leader_reaches_the_rim_refuted, C67_rad_leader_reaches_the_rim_partial, C67_where_a_dia_is_drawn, C67_where_a_rad_is_drawn, C68_arrow_heads_end_the_arc_partial, C68_arrow_heads_end_the_arc_refuted, C68_where_an_angle_is_drawn, C70_inputs_are_never_changed_refuted, C71_a_missing_script_keeps_the_output_refuted, C73_the_picture_is_exact, C74_nothing_behind_a_facet_is_drawn_partial, C74_nothing_behind_a_facet_is_drawn_refuted, C75_facet_order_does_not_matter, C75_order_matters_where_three_facets_meet, C76_position_and_unit_do_not_matter, C76_views_move_with_the_model, C77_drawings_stay_in_their_box, C78_named_views_show_their_side, C78_named_views_turn_exactly, C78_opposite_views_share_the_facets, C79_angles_spin_then_tilt, C83_missing_directions_are_called_zero_refuted, C83_text_duplicates_are_miscalled_refuted, C85_double_precision, C85_model_numbers_are_doubles, C85_ordinary_numbers_are_read, C85_scales_are_truncated, C85_script_numbers_are_singles, C85_single_precision, C85_whole_numbers_are_kept, C86_exact_output_has_six_figures, C86_output_has_six_figures, C87_angle_labels, C87_dia_labels, C87_dim_labels, C87_rad_labels, C88_dim_labels_in_doubles, C89_angle_labels_in_doubles_partial, C89_parallel_sides_refuted, C90_ties_in_sorting_do_not_matter, C91_views_in_doubles, C92_lines_follow_the_sides, C95_lines_in_the_output, C95_lines_on_the_page, C96_success_means_complete_output_refuted, C97_cut_models_are_rejected_refuted, C98_every_lookup_is_ordered_refuted, C98_exact_lookups_are_ordered_partial, C98_known_circles_are_ordered_partial, C98_moderate_lookups_are_ordered_partial.

