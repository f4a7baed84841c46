{"id": "C01", "title": "A failed conversion writes no PostScript", "statement": "If converting a script reports failure, not one byte has been written to the output stream, whatever was parsed, loaded or drawn before the failure was noticed.", "quantifier": "every script text, every set of model files on disk, every flag setting, every place at which the failure is detected", "why_tests_cant": "the failure can be raised at any page, draw, dimension or property; tests exercise a handful of failing scripts and do not look at the output stream", "anchors": ["stl-to-ps/stl-to-ps.cc: ScriptToPS", "stl-to-ps/stl-to-ps.cc: RenderPages", "stl-to-ps/stl-to-ps.cc: GeneratePages"]}
{"id": "C02", "title": "A successful conversion writes header plus every page, in order, numbered 1..n of n", "statement": "If converting a script reports success, the output is exactly the document header followed by one block per page of the script, in script order; block k announces 'page k of n' with n the number of pages in the script and ends with one showpage.", "quantifier": "every script with any number of pages, every content of the pages", "why_tests_cant": "page counts and contents are unbounded; the existing test renders a single empty page and looks for substrings", "anchors": ["stl-to-ps/stl-to-ps.cc: RenderPages", "stl-to-ps/ps.cc: PageHeader", "stl-to-ps/ps.cc: PageFooter"]}
{"id": "C03", "title": "Drawings do not leak state into each other", "statement": "What a draw or text item adds to its page, and whether it succeeds, depends only on the item and on the loaded models, never on which items (successful or failed) were processed before it on this or earlier pages; it only appends to the current page.", "quantifier": "every pair of histories leading to the item, every item", "why_tests_cant": "the visitor object carries scale, offset, rotation and point set from one item to the next; only a universally quantified history shows none of it is read before being rewritten", "anchors": ["stl-to-ps/stl-to-ps.cc: DrawToPage::operator()(const Draw&)", "stl-to-ps/stl-to-ps.cc: DrawToPage::operator()(const Text&)", "stl-to-ps/stl-to-ps-impl.h: DrawToPage"]}
{"id": "C04", "title": "Generating the pages of one parsed document twice gives the same pages", "statement": "Calling page generation twice on the same document object and models yields the same pages and the same verdict both times.", "quantifier": "every document, every set of models", "why_tests_cant": "a test would have to pick the document; whether repeated use is safe is a statement about all of them", "anchors": ["stl-to-ps/stl-to-ps.cc: DrawToPage::GetRotated", "stl-to-ps/ast.h: Val::Rotate", "stl-to-ps/stl-to-ps.cc: GeneratePages"]}
{"id": "C05", "title": "Within one conversion each coordinate triple is rotated into its view exactly once", "statement": "During one page generation, every coordinate triple that a dimension uses is multiplied by the view matrix of its draw exactly once before it is used, and triples of dimensions that are never evaluated are not touched.", "quantifier": "every document, any number of draws, dimensions and nested point functions", "why_tests_cant": "the rotation happens in place on the syntax tree, so double rotation depends on the whole visiting order", "anchors": ["stl-to-ps/stl-to-ps.cc: DrawToPage::GetRotated", "stl-to-ps/ast.h: Val::Rotate", "stl-to-ps/ast.h: PointFunc::Rotate"]}
{"id": "C06", "title": "Duplicate properties are always rejected", "statement": "A script in which some page, draw, text, angle, dia, dim or rad lists two properties of the same name is never converted successfully.", "quantifier": "every script, every block kind, every property name, every position of the duplicate", "why_tests_cant": "tests try one or two names per block kind", "anchors": ["stl-to-ps/stl-to-ps.cc: Flatten", "stl-to-ps/stl-to-ps.cc: GeneratePages"]}
{"id": "C07", "title": "Unknown properties are always rejected", "statement": "A script in which a page, draw, text, angle, dia, dim or rad has a property whose name is not one of those documented for that kind of block is never converted successfully.", "quantifier": "every script, every block kind, every property name", "why_tests_cant": "the set of unknown names is infinite", "anchors": ["stl-to-ps/stl-to-ps.cc: Take", "stl-to-ps/stl-to-ps.cc: DrawToPage"]}
{"id": "C08", "title": "Dimensions with a missing mandatory property are always rejected", "statement": "angle without at, apex, one of from_dir/from_point or one of to_dir/to_point, dim without at, dir, from or to, and dia/rad without at, dir or center make the conversion fail; so does an angle with both members of a from_/to_ pair.", "quantifier": "every script, every combination of present and absent properties", "why_tests_cant": "combinations of presence and absence times types are too many for case files", "anchors": ["stl-to-ps/stl-to-ps.cc: DrawToPage::operator()(const Angle&)", "stl-to-ps/stl-to-ps.cc: DrawToPage::operator()(const Dim&)", "stl-to-ps/stl-to-ps.cc: DrawToPage::GetCenter"]}
{"id": "C09", "title": "Unresolvable references are always rejected", "statement": "A script that loads the same model name twice, loads a file that cannot be opened or parsed, draws a model that is not loaded, or names a view other than X+ X- Y+ Y- Z+ Z- is never converted successfully.", "quantifier": "every script and file system", "why_tests_cant": "names, files and positions are unbounded", "anchors": ["stl-to-ps/stl-to-ps.cc: LoadFiles", "stl-to-ps/stl-to-ps.cc: DrawToPage::operator()(const Draw&)", "stl-to-ps/ast.cc: GetMatrixByName"]}
{"id": "C10", "title": "No script can trip the placement type assertion", "statement": "For every script text accepted by the parser, the '@' property of a draw or text always carries a 2D location, so the hard assertion on its type never aborts the program.", "quantifier": "every script text", "why_tests_cant": "the assertion kills the process; that no text reaches it is a statement about the whole grammar", "anchors": ["stl-to-ps/stl-to-ps.cc: CHECK(at->As(&loc))", "stl-to-ps/parser.y: arg"]}
{"id": "C11", "title": "Model lookup order", "statement": "An absolute model path is opened as is; a relative one is tried under the current directory first and then under each load path entry in the order given, and the first that opens is the one used; if none opens the conversion fails.", "quantifier": "every load path list, every file name, every file system", "why_tests_cant": "depends on which of arbitrarily many candidate files exist", "anchors": ["stl-to-ps/stl-to-ps.cc: LoadFiles"]}
{"id": "C12", "title": "Relative model names stay inside the search directories", "statement": "A relative model name is only ever opened below the current directory or below one of the directories listed in --load_path.", "quantifier": "every flag value including the default, every file name without .. components", "why_tests_cant": "a test must guess the flag value and file system for which it fails", "anchors": ["stl-to-ps/stl-to-ps.cc: LoadFiles", "stl-to-ps/stl-to-ps.cc: FLAGS_load_path"]}
{"id": "C13", "title": "The STL reader accepts exactly the supported line language", "statement": "Reading an STL text succeeds only if every line is one of: solid/endsolid with an optional name, outer loop/endloop, facet normal with three numbers, endfacet, vertex with three numbers (any leading spaces); any other line makes it return no model, and a text made of such lines (with at least three vertices in each facet) is accepted.", "quantifier": "every sequence of input lines", "why_tests_cant": "the input language is infinite", "anchors": ["stl-to-ps/stl.cc: STLFile::Make"]}
{"id": "C14", "title": "The STL reader builds one facet per facet block, in file order", "statement": "For a text made of well formed facet blocks the model has exactly one facet per block with non-zero given normal, in file order, built from the block's first three vertices and given normal; blocks with a zero normal are dropped and blocks do not influence each other.", "quantifier": "every number of blocks, every vertex and normal values, any number of solids", "why_tests_cant": "state carried between lines (normal and point list) could leak between blocks", "anchors": ["stl-to-ps/stl.cc: STLFile::Make"]}
{"id": "C15", "title": "The STL reader never reads out of bounds", "statement": "Reading any text either yields a model, or rejects it; it never indexes past the collected vertices.", "quantifier": "every input text", "why_tests_cant": "memory safety for all inputs cannot be sampled", "anchors": ["stl-to-ps/stl.cc: STLFile::Make", "stl-to-ps/stl.cc: Facet::Facet"]}
{"id": "C16", "title": "Facet normal and plane are geometrically right", "statement": "For three non-collinear vertices the stored normal is a unit vector orthogonal to the triangle, on the side of the given normal, the stored vertex order turns counter-clockwise around it, the vertices are those given, and the stored plane offset equals the dot product of the normal with every vertex.", "quantifier": "every triple of non-collinear vertices and every given normal", "why_tests_cant": "continuous domain", "anchors": ["stl-to-ps/stl.cc: Facet::Facet"]}
{"id": "C17", "title": "Every view is a proper rotation", "statement": "Each of the six named views and every angle view is a rotation: it preserves lengths and angles and does not mirror the model.", "quantifier": "all six names, all pairs of angles, all vectors", "why_tests_cant": "angles are continuous; the test checks images of the axes only", "anchors": ["stl-to-ps/geo.h: matrix", "stl-to-ps/geo.cc: Rotate", "stl-to-ps/ast.cc: GetMatrixByName", "stl-to-ps/ast.cc: GetMatrixByAng"]}
{"id": "C18", "title": "Rotating a model keeps its facets consistent", "statement": "After rotating a model by any view, the normals are still unit and orthogonal to their triangles and the plane offset, which is not recomputed, still equals the dot product of normal and vertices.", "quantifier": "every model, every view", "why_tests_cant": "continuous domain; the code relies on it silently because the offset is not updated", "anchors": ["stl-to-ps/stl.cc: STLFile::Rotate", "stl-to-ps/stl.h: Facet::r"]}
{"id": "C19", "title": "Back-face culling keeps exactly the facets facing the viewer", "statement": "Culling removes exactly the facets whose normal has non-positive z, keeps all others with the same multiplicity, and culling again changes nothing, not even the order.", "quantifier": "every list of facets of any length, any arithmetic including NaN normals", "why_tests_cant": "the in-place swap loop is index arithmetic over unbounded lists", "anchors": ["stl-to-ps/stl.cc: STLFile::CullBackFace"]}
{"id": "C20", "title": "Limits is the tight bounding box", "statement": "The limits of a non-empty model contain the x and y of every vertex, and each of the four bounds is attained by a vertex; for an empty model they are zero.", "quantifier": "every model", "why_tests_cant": "unbounded vertex lists", "anchors": ["stl-to-ps/stl.cc: STLFile::Limits"]}
{"id": "C21", "title": "@[x,y] centres the drawing at that place", "statement": "A successful draw with @[x,y] puts the centre of the bounding box of the shown model (its facets that are not turned away from the viewer, projected) at (72x+396, 72y+306) points, for every scale with a non-zero denominator; without @ the centre is at the page origin.", "quantifier": "every model, view, scale and position", "why_tests_cant": "continuous domain", "anchors": ["stl-to-ps/stl-to-ps.cc: DrawToPage::operator()(const Draw&)", "stl-to-ps/stl-to-ps.cc: AddLines"]}
{"id": "C22", "title": "Points is exactly the set of vertices", "statement": "The point set of a model holds every vertex of every facet, nothing else, and no point twice, in increasing order.", "quantifier": "every model", "why_tests_cant": "unbounded", "anchors": ["stl-to-ps/stl.cc: STLFile::Points", "stl-to-ps/geo.h: PointOrder"]}
{"id": "C23", "title": "Every triangle side is indexed once and found again", "statement": "After indexing, each undirected side of each facet occurs exactly once in the edge list regardless of direction or of how many facets share it, there are no other edges, each facet's three indices point at its own three sides, and the 'edge not found' assertion never fires.", "quantifier": "every list of facets with no NaN coordinate", "why_tests_cant": "the edge list is permuted in place and re-looked-up through an ordered map", "anchors": ["stl-to-ps/stl.cc: STLFile::Index"]}
{"id": "C24", "title": "Exactly the smooth edges are suppressed", "statement": "An edge is drawn as a candidate unless the first and last facet listing it are different and their normals have a dot product of at least 0.98; candidates come first in the list.", "quantifier": "every list of facets", "why_tests_cant": "the swap loop must neither skip nor double-process an edge for any length", "anchors": ["stl-to-ps/stl.cc: STLFile::Index"]}
{"id": "C25", "title": "The edge crossing table never has duplicates", "statement": "The 'Duplicate found' assertion never fires: each ordered pair of edges is recorded at most once.", "quantifier": "every list of edges, any arithmetic", "why_tests_cant": "a crash condition over quadratically many pairs", "anchors": ["stl-to-ps/stl.cc: STLFile::EdgeCrosses"]}
{"id": "C26", "title": "The hidden point buffer never overflows", "statement": "For each edge and facet at most five hidden points are stored in the five element buffer, and all edge indices used are in range: whenever std::map and std::sort are used within their requirements, every side is found again in the map of edges, and indexing fails exactly when the order of edges is not a strict weak order on the sides.", "quantifier": "every model, every arithmetic", "why_tests_cant": "memory safety for all models, including degenerate triangles with repeated edges", "anchors": ["stl-to-ps/stl.cc: STLFile::ToLines"]}
{"id": "C27", "title": "Hidden spans are never reversed", "statement": "For every model with coordinates of magnitude up to 2^500 the line generation never aborts with 'Points out of order', 'Hidden section reversed', 'edge not found' or 'Duplicate found', with the rounding of IEEE double arithmetic taken into account.", "quantifier": "every facet list with bounded finite coordinates, every view matrix with entries in [-1,1]", "why_tests_cant": "the assertions compare rounded squared distances; a test cannot cover rounding behaviour of all inputs", "anchors": ["stl-to-ps/stl.cc: STLFile::ToLines", "stl-to-ps/stl.cc: GenerateLines"]}
{"id": "C28", "title": "Generated lines are the edge minus its hidden spans", "statement": "For an edge and hidden spans on it sorted by start, the generated lines cover exactly the points of the edge that lie in no hidden span (up to end points), in order and without overlap.", "quantifier": "every edge, any number of overlapping or nested spans", "why_tests_cant": "unbounded span lists with arbitrary overlap", "anchors": ["stl-to-ps/stl.cc: GenerateLines"]}
{"id": "C29", "title": "Hidden line removal never erases a visible point", "statement": "Every erased part of an edge really is covered: its projection lies in the closed triangle of some facet turned to the viewer and it lies on or behind that facet's plane.", "quantifier": "every model, every edge, every point on it", "why_tests_cant": "continuous geometric statement over all meshes", "anchors": ["stl-to-ps/stl.cc: STLFile::ToLines", "stl-to-ps/stl.cc: STLFile::EdgeCrosses"]}
{"id": "C30", "title": "Hidden line removal erases everything behind a facet", "statement": "If an edge stays behind a front facet wherever their projections overlap (strictly behind its inside, it may touch the facet along its sides), every point of the edge whose projection is interior to the facet is erased.", "quantifier": "every model, every non-piercing edge/facet pair, every point", "why_tests_cant": "continuous geometric statement over all meshes", "anchors": ["stl-to-ps/stl.cc: STLFile::ToLines", "stl-to-ps/stl.cc: STLFile::EdgeCrosses"]}
{"id": "C31", "title": "Point and line comparisons are strict orders", "statement": "The point comparison used by sets and maps, the edge comparison and the line comparison are strict weak orders on values without NaN, and two points are equivalent iff their coordinates are equal.", "quantifier": "all pairs and triples of non-NaN doubles, including infinities and signed zeros", "why_tests_cant": "required by std::set/map/sort for every key; violation is undefined behaviour", "anchors": ["stl-to-ps/geo.h: Order", "stl-to-ps/geo.h: operator<", "stl-to-ps/stl.cc: EdgeOrder"]}
{"id": "C32", "title": "near() returns the closest vertex in the view", "statement": "near(p) returns p itself if it is a vertex, and otherwise the x,y of a vertex whose distance from p in the page plane is minimal, with z=0; it fails only for an empty model or a failing argument.", "quantifier": "every non-empty point set, every target", "why_tests_cant": "minimum over an unbounded set", "anchors": ["stl-to-ps/ast.cc: PointFunc::Near"]}
{"id": "C33", "title": "Closest returns the count closest points", "statement": "Closest(ps,n,to) returns min(n,|ps|) points of ps, sorted by distance, none of the others being closer.", "quantifier": "every point list, count and target", "why_tests_cant": "depends on the order of the input list", "anchors": ["stl-to-ps/ast.cc: point_impl::Closest"]}
{"id": "C34", "title": "Closest never returns a farther point in place of a closer one", "statement": "Closest(ps,n,to) returns at most n points, all from ps, sorted by distance, and every point of ps that is not returned is at least as far as every returned one or coincides (within a tenth of its distance) with another point of ps at the same distance.", "quantifier": "every point list, count and target", "why_tests_cant": "depends on the order of the input list", "anchors": ["stl-to-ps/ast.cc: point_impl::Closest"]}
{"id": "C35", "title": "Between returns exactly the points in the open annulus", "statement": "Between(ps,min,max,to) with 0<=min<=max returns exactly the points whose distance from to is strictly between min and max, in their original order.", "quantifier": "every point list, bounds and target", "why_tests_cant": "unbounded", "anchors": ["stl-to-ps/ast.cc: point_impl::Between"]}
{"id": "C36", "title": "Circle fit is exact on circles", "statement": "For at least three points on a circle, three of them not collinear, FindCircle reports exactly that circle's centre and radius; with fewer than three points it reports failure.", "quantifier": "every number of points, every circle (exact arithmetic)", "why_tests_cant": "unbounded point sets, continuous domain", "anchors": ["stl-to-ps/center.cc: FindCircle"]}
{"id": "C37", "title": "Circle fit follows translation and scaling", "statement": "Translating all points translates the fitted centre and keeps the radius; scaling all points by a positive factor scales centre and radius, for any non-degenerate point set (exact arithmetic).", "quantifier": "every point set, translation and factor", "why_tests_cant": "the tests check one point set and one offset", "anchors": ["stl-to-ps/center.cc: FindCircle"]}
{"id": "C38", "title": "Degenerate circles are reported, not drawn", "statement": "If the first circle fit of dia, rad or center() yields a radius that is not a finite number, the item fails instead of drawing with that radius.", "quantifier": "every point set, IEEE arithmetic with NaN and infinity", "why_tests_cant": "NaN propagation through the selection of points", "anchors": ["stl-to-ps/stl-to-ps.cc: DrawToPage::GetCenter", "stl-to-ps/ast.cc: PointFunc::Center"]}
{"id": "C39", "title": "A dimension measures the distance along its direction, in every view", "statement": "For coordinate arguments, the value printed by dim is |(to-from).dir|/|dir| in model coordinates, whatever the view and the place of the label.", "quantifier": "every from,to,at,dir and view (exact arithmetic)", "why_tests_cant": "continuous domain", "anchors": ["stl-to-ps/stl-to-ps.cc: DrawToPage::operator()(const Dim&)"]}
{"id": "C40", "title": "An angle measures the angle between its sides, in every view and order", "statement": "For coordinate arguments, the value printed by angle is the angle between the two directions in degrees, is the same in every view in which it is drawn and does not change when from and to are exchanged; directions whose projections are parallel are rejected.", "quantifier": "every argument and view (exact arithmetic)", "why_tests_cant": "continuous domain", "anchors": ["stl-to-ps/stl-to-ps.cc: DrawToPage::operator()(const Angle&)"]}
{"id": "C41", "title": "Each dimension adds all of its parts or nothing", "statement": "A successful dim adds exactly 8 lines and 1 text, angle 6 lines, 1 arc and 1 text, dia 6 lines and 1 text, rad 4 lines and 1 text, and a failing one adds nothing to the page.", "quantifier": "every dimension, every state, any arithmetic", "why_tests_cant": "there are many failure exits in each function", "anchors": ["stl-to-ps/stl-to-ps.cc: DrawToPage"]}
{"id": "C42", "title": "Model geometry is mapped to the page by one scale and offset", "statement": "Every line, arc and text added by a draw is its model coordinates times 72*a/b plus the offset of that draw, appended after what was on the page.", "quantifier": "every list of primitives", "why_tests_cant": "unbounded", "anchors": ["stl-to-ps/stl-to-ps.cc: DrawToPage::AddLines", "stl-to-ps/stl-to-ps.cc: DrawToPage::AddArcs", "stl-to-ps/stl-to-ps.cc: DrawToPage::AddText"]}
{"id": "C43", "title": "Text survives PostScript quoting", "statement": "Reading an emitted (non raw) text item back with the PostScript string rules gives exactly the original string, and the rest of the program is unaffected.", "quantifier": "every string", "why_tests_cant": "all byte strings, including nested and unbalanced parentheses and backslashes", "anchors": ["stl-to-ps/ps.cc: TextToPs"]}
{"id": "C44", "title": "Diameter labels are well formed PostScript strings", "statement": "The text item emitted for a dia is a well formed PostScript string literal whatever valid fmt the user supplies.", "quantifier": "every accepted fmt string and value", "why_tests_cant": "format strings are unbounded and inserted unescaped", "anchors": ["stl-to-ps/stl-to-ps.cc: DrawToPage::RenderDia", "stl-to-ps/ps.cc: TextToPs"]}
{"id": "C45", "title": "User names stay inside header comments", "statement": "The --name and script name written in the document header never become PostScript code.", "quantifier": "every flag value and script name", "why_tests_cant": "strings are unbounded", "anchors": ["stl-to-ps/ps.cc: DocumentHeader"]}
{"id": "C46", "title": "Multi-line text layout", "statement": "A text item places its k-th line (counting empty ones) 12 points below the previous one starting from (72x+396,72y+306), skips empty lines, and the lines joined with newlines are the given text.", "quantifier": "every text, every position", "why_tests_cant": "unbounded number of lines", "anchors": ["stl-to-ps/stl-to-ps.cc: DrawToPage::operator()(const Text&)"]}
{"id": "C47", "title": "Page title box", "statement": "Every generated page gets its title as last text and exactly two frame lines after everything else; title and frame stay inside the page border for every title of at most 161 bytes.", "quantifier": "every page name", "why_tests_cant": "unbounded names, float rounding", "anchors": ["stl-to-ps/stl-to-ps.cc: OutputPage::AddHeader"]}
{"id": "C48", "title": "Successful output contains only finite numbers", "statement": "If the conversion of a script succeeds, every number in the produced PostScript is finite.", "quantifier": "every script accepted by the parser and every model", "why_tests_cant": "depends on division by zero for particular parameters", "anchors": ["stl-to-ps/stl-to-ps.cc: proj.scale", "stl-to-ps/ps.cc: LinesToPs"]}
{"id": "C49", "title": "String literals are decoded exactly", "statement": "Decoding the literal spelling of a string (quotes added; backslash, quote and newline escaped) gives the string back, and decoding any literal accepted by the lexer reads and writes only inside the literal.", "quantifier": "every string without NUL, every literal accepted by the lexer", "why_tests_cant": "all byte strings; in-place decoding with two moving indices", "anchors": ["stl-to-ps/ast.cc: NewQuote", "stl-to-ps/lexer.l: STRING_LIT"]}
{"id": "C50", "title": "No part of a string literal is lost", "statement": "The value of any string literal accepted by the lexer consists of all of its characters with the escapes replaced.", "quantifier": "every accepted literal, including those with NUL bytes", "why_tests_cant": "infinite input space", "anchors": ["stl-to-ps/lexer.l: NewQuote(yytext)"]}
{"id": "C51", "title": "The lexer consumes every input byte exactly once", "statement": "Splitting any byte string into tokens and skipped text terminates, and the pieces concatenated in order are the input; each token carries the line number it starts on.", "quantifier": "every byte string", "why_tests_cant": "termination and losslessness for all inputs", "anchors": ["stl-to-ps/lexer.l"]}
{"id": "C52", "title": "Longest match and keywords", "statement": "A keyword is recognised only as a whole word: an identifier that merely starts with a keyword is an identifier, and no identifier token is a keyword.", "quantifier": "every word", "why_tests_cant": "all words", "anchors": ["stl-to-ps/lexer.l"]}
{"id": "C53", "title": "The parser accepts exactly the grammar and is unambiguous", "statement": "A token sequence is accepted iff it derives from the published grammar, and then yields exactly the document of that (unique) derivation.", "quantifier": "every token sequence", "why_tests_cant": "infinite language", "anchors": ["stl-to-ps/parser.y"]}
{"id": "C54", "title": "Layout and comments do not matter", "statement": "Inserting or changing blanks, line breaks and // comments between tokens of a script never changes the parsed document (apart from line numbers).", "quantifier": "every script, every layout", "why_tests_cant": "infinite", "anchors": ["stl-to-ps/lexer.l", "stl-to-ps/parser.y"]}
{"id": "C55", "title": "A printed document parses back", "statement": "Writing any document in script syntax and parsing it gives the same document.", "quantifier": "every document", "why_tests_cant": "infinite", "anchors": ["stl-to-ps/lexer.l", "stl-to-ps/parser.y", "stl-to-ps/ast.cc: NewQuote"]}
{"id": "C56", "title": "Parsing always returns", "statement": "Parsing any text returns success or a syntax error; it never terminates the process.", "quantifier": "every script text", "why_tests_cant": "depends on particular numeric literals", "anchors": ["stl-to-ps/lexer.l: std::stof", "stl-to-ps/parser.y: Scale"]}
{"id": "C57", "title": "A scale a:b magnifies by a/b", "statement": "A draw with scale a:b is drawn at a/b times its size (72 points per model unit).", "quantifier": "every pair of numbers accepted by the lexer", "why_tests_cant": "depends on the conversion of the literals", "anchors": ["stl-to-ps/parser.y: Scale", "stl-to-ps/stl-to-ps.cc: proj.scale"]}
{"id": "C58", "title": "Every failed conversion is explained", "statement": "If converting a parsed script fails, at least one diagnostic with a source location has been printed.", "quantifier": "every script", "why_tests_cant": "all failing exits", "anchors": ["stl-to-ps/ast.cc: PointFunc::Near", "stl-to-ps/ast.cc: PointFunc::Center", "stl-to-ps/ast.h: SYM_ERROR"]}
{"id": "C59", "title": "All pages are checked even after an error", "statement": "An error in one draw or page does not stop the diagnosis of the others: the diagnostics of a document are those of its pages in order, and each page's are those of its items in order.", "quantifier": "every document", "why_tests_cant": "unbounded", "anchors": ["stl-to-ps/stl-to-ps.cc: GeneratePages"]}
{"id": "C60", "title": "Exit status", "statement": "The program exits with 0 exactly when the conversion succeeded; with a missing --script or --output it exits with 1 and touches no file; otherwise the output file is replaced, and is left empty if the conversion fails.", "quantifier": "every command line, script and file system", "why_tests_cant": "all combinations", "anchors": ["stl-to-ps/stl-to-ps-main.cc: main"]}
{"id": "C61", "title": "Rotation never produces NaN", "statement": "Rotating finite vertices by a view matrix whose entries are at most 1 in magnitude never yields a NaN coordinate, so the ordered containers only ever see comparable keys.", "quantifier": "all finite doubles", "why_tests_cant": "IEEE rounding and overflow on all inputs", "anchors": ["stl-to-ps/stl.cc: STLFile::Rotate", "stl-to-ps/geo.cc: Rotate"]}
{"id": "C62", "title": "Omitting @ equals @[0,0]", "statement": "Leaving out @ on a text or a draw has the same effect as @[0,0].", "quantifier": "every text and draw item", "why_tests_cant": "universally quantified over items", "anchors": ["stl-to-ps/stl-to-ps.cc: DrawToPage::operator()(const Draw&)", "stl-to-ps/stl-to-ps.cc: DrawToPage::operator()(const Text&)"]}
{"id": "C63", "title": "The reasons for which a run can end abnormally", "statement": "A conversion can end the process abnormally only for one of nine named reasons, and for each of them the script or a model file contains the cause: a number too large for a float, a scale that does not fit an int, a facet closed with fewer than three vertices, vertices that the orders given to std::map, std::set and std::sort do not put in a strict weak order (a coordinate that is NaN, or a distance in a model whose distances cannot be measured), a hidden span out of order or reversed, or a dimension in a view whose matrix is zero.", "quantifier": "every script, every set of files, every arithmetic with ordered comparisons", "why_tests_cant": "that nothing else can abort is a statement about all executions", "anchors": ["stl-to-ps/stl.cc: CHECK", "stl-to-ps/stl-to-ps.cc: CHECK", "stl-to-ps/lexer.l: std::stof", "stl-to-ps/parser.y: Scale"]}
{"id": "C64", "title": "Conversions of ordinary files end", "statement": "If the numbers of the script fit, no model closes a facet early or has a vertex beyond 2^500, and view angles are at most 2^1000, then the conversion returns (successfully or with errors) in double arithmetic with any sine and cosine bounded by one and never both zero.", "quantifier": "every script and set of files meeting the limits, every rounding of the library's sine and cosine", "why_tests_cant": "absence of aborts over all double inputs, including all rounding errors in hidden line removal", "anchors": ["stl-to-ps/stl.cc: STLFile::ToLines", "stl-to-ps/stl.cc: LinesGenerator", "stl-to-ps/stl-to-ps-main.cc: main"]}
{"id": "C65", "title": "dia, rad and center() report the fitted circle", "statement": "A successful dia prints \\351 followed by twice the radius, rad prints R followed by the radius, and center() gives the centre, of one circle: the least-squares circle of all projected vertices that lie strictly within a tenth of the circle through the three vertices picked near the given place.", "quantifier": "every vertex set, view, place and format (exact arithmetic)", "why_tests_cant": "continuous domain and unbounded vertex sets", "anchors": ["stl-to-ps/stl-to-ps.cc: DrawToPage::GetCenter", "stl-to-ps/stl-to-ps.cc: DrawToPage::operator()(const Dia&)", "stl-to-ps/stl-to-ps.cc: DrawToPage::operator()(const Rad&)", "stl-to-ps/ast.cc: PointFunc::Center"]}
{"id": "C66", "title": "Where a dim is drawn", "statement": "A successful dim writes its text at the scaled place of at, and draws between the feet of from and to (their projections on the line through at along dir): arrow heads at both feet, a dimension line that leaves the label free or reaches it from outside, and one extension line per measured point that starts 4 points beyond the foot and stops 2 points short of the measured point. When dir lies in the page the extension lines are perpendicular to it.", "quantifier": "every place, direction, pair of points, scale and offset (exact arithmetic)", "why_tests_cant": "continuous domain; tests compare single pictures", "anchors": ["stl-to-ps/stl-to-ps.cc: DrawToPage::operator()(const Dim&)"]}
{"id": "C67", "title": "Where a dia or rad is drawn", "statement": "A successful dia or rad draws a leader through the scaled centre of the fitted circle along the page direction of dir, with arrow heads whose tips are on the scaled circle, a bend at the height of the label and a line to the label. The leader reaches the rim it points at.", "quantifier": "every place, direction, scale, offset and vertex set (exact arithmetic)", "why_tests_cant": "continuous domain; tests compare single pictures", "anchors": ["stl-to-ps/stl-to-ps.cc: DrawToPage::operator()(const Dia&)", "stl-to-ps/stl-to-ps.cc: DrawToPage::operator()(const Rad&)"]}
{"id": "C68", "title": "Where an angle is drawn", "statement": "A successful angle draws one arc around the scaled apex, whose radius is the scaled distance of at from the apex and which runs counter-clockwise by less than half a turn from one side to the other, two side lines that begin 2 points beyond the side's start and end 4 points beyond the arc, and arrow heads at the ends of the arc.", "quantifier": "every place, apex, pair of sides, scale and offset (exact arithmetic)", "why_tests_cant": "continuous domain; tests compare single pictures", "anchors": ["stl-to-ps/stl-to-ps.cc: DrawToPage::operator()(const Angle&)"]}
{"id": "C69", "title": "Exactly the valid scripts convert", "statement": "A script is converted (ScriptToPS returns true) if and only if it parses and the document is valid: model names are distinct and every source is found and readable; every block has only documented properties, none twice; page names are strings; every draw names a loaded model, has a view that is one of the six names or a pair of angles and a ratio as scale; every dimension has all its arguments, with a usable format, a direction that is not zero, enough points for a circle, or sides of an angle given in exactly one way.", "quantifier": "every script, every file system, every environment, every arithmetic", "why_tests_cant": "the two directions range over all scripts: no accepted script is invalid and no valid script is refused", "anchors": ["stl-to-ps/stl-to-ps.cc: ScriptToPS, GeneratePages, LoadFiles", "stl-to-ps/stl-to-ps.cc: DrawToPage::operator()(const Draw&), DrawToPage::operator()(const Text&)", "stl-to-ps/stl-to-ps.cc: DrawToPage::operator()(const Dim&), DrawToPage::operator()(const Dia&), DrawToPage::operator()(const Rad&), DrawToPage::operator()(const Angle&)"]}
{"id": "C70", "title": "A run never changes its inputs", "statement": "After a run of the program, whatever its outcome, every file except the output file has the contents it had before; in particular a script and STL files survive the run.", "quantifier": "every script path, output path, file system and outcome (exit or abort)", "why_tests_cant": "ranges over all file systems and all failing and aborting runs", "anchors": ["stl-to-ps/stl-to-ps-main.cc: main"]}
{"id": "C71", "title": "A run that cannot read its script leaves the old output alone", "statement": "If the script cannot be opened, a file that already exists at the output path keeps its contents.", "quantifier": "every file system, script path and output path", "why_tests_cant": "depends on the order of opening files in every environment", "anchors": ["stl-to-ps/stl-to-ps-main.cc: main"]}
{"id": "C72", "title": "The order of loads and of properties does not matter", "statement": "Two scripts whose documents differ only in the order of their load statements, in the order of the properties inside pages, draws, texts and dimensions, and in source positions, either both convert or both do not, and when they return they return the same output.", "quantifier": "every pair of scripts, every permutation, every file system, environment and arithmetic", "why_tests_cant": "permutations of unbounded lists; a test fixes one order", "anchors": ["stl-to-ps/stl-to-ps.cc: LoadFiles", "stl-to-ps/stl-to-ps.cc: DrawToPage::operator()(const Draw&), DrawToPage::operator()(const Text&), DrawToPage::operator()(const Dim&), DrawToPage::operator()(const Dia&), DrawToPage::operator()(const Rad&), DrawToPage::operator()(const Angle&)"]}
{"id": "C73", "title": "Views show exactly the outline that is not hidden", "statement": "In exact arithmetic, for a model with well formed facets of which no three visible ones share a side, the lines of a view are exactly these: for every side of a visible facet, once, unless two visible facets meet there almost flat, the parts of it that no visible facet hides; a facet hides what lies between the first and last place where the side ends behind the facet or passes behind one of the facet's sides. The lines are determined by this up to their order.", "quantifier": "every model with proper facets and no side shared by three visible facets, every rotation", "why_tests_cant": "exact picture of unboundedly many facets and views; a test compares one sample picture", "anchors": ["stl-to-ps/stl.cc: STLFile::Rotate, STLFile::CullBackFace, STLFile::Index, STLFile::EdgeCrosses, STLFile::ToLines, GenerateLines"]}
{"id": "C74", "title": "Nothing behind a facet is drawn", "statement": "In exact arithmetic no drawn point of an edge lies strictly behind the inside of a facet that faces the viewer.", "quantifier": "every model with proper facets, every rotation, every point of every edge", "why_tests_cant": "quantifies over every edge and facet position, including facets that pierce each other", "anchors": ["stl-to-ps/stl.cc: STLFile::ToLines, STLFile::EdgeCrosses, GenerateLines"]}
{"id": "C75", "title": "The order of facets in an STL file does not matter", "statement": "Two models that have the same facets in different order give the same lines, up to order, in every view (exact arithmetic, no side shared by three visible facets; where three facets share a side the order can decide whether the side is drawn).", "quantifier": "every model, every permutation of its facets, every rotation", "why_tests_cant": "permutations of unbounded lists", "anchors": ["stl-to-ps/stl.cc: STLFile::Rotate, STLFile::Index", "stl-to-ps/stl.cc: STLFile::ToLines, STLFile::EdgeCrosses, GenerateLines"]}
{"id": "C76", "title": "Where a model sits and what its unit is do not matter", "statement": "A model moved by any vector and enlarged by a factor k has the same views moved and enlarged; and when a draw without dimensions uses a scale k times smaller for it, both draws put the same lines on the page.", "quantifier": "every model with proper facets and no side shared by three visible facets, every vector, factor k > 0, rotation, scale and place (exact arithmetic)", "why_tests_cant": "all translations, unit changes and models; a relation between two runs", "anchors": ["stl-to-ps/stl-to-ps.cc: DrawToPage::operator()(const Draw&)", "stl-to-ps/stl.cc: STLFile::Rotate, STLFile::Index", "stl-to-ps/stl.cc: STLFile::ToLines, STLFile::EdgeCrosses, GenerateLines"]}
{"id": "C77", "title": "A drawing stays inside its box", "statement": "In exact arithmetic, if no two corners of the visible facets are more than w apart across and h apart up the view, then every line of a draw at scale a:b and place (x, y) lies in the box of width 72*|a/b|*w and height 72*|a/b|*h centred at that place (dimension marks excepted).", "quantifier": "every model with proper facets, every rotation, scale with b <> 0, place, and size w, h", "why_tests_cant": "a bound over all points of all lines of all models", "anchors": ["stl-to-ps/stl-to-ps.cc: DrawToPage::operator()(const Draw&)", "stl-to-ps/stl.cc: STLFile::Limits, STLFile::ToLines"]}
{"id": "C78", "title": "Named views show the axes as documented, without rounding", "statement": "In double arithmetic, a draw with view = \"X+\" (and so on for the six names) shows exactly the facets whose normal points along that axis, with every coordinate moved to its place on the page without rounding: X+ puts y to the right and z up, X- puts -y right and z up, Y+ -x right and z up, Y- x right and z up, Z+ x right and y up, Z- x right and -y up. Opposite views together show every facet that is not edge on, once.", "quantifier": "every finite model, all six names, every libm", "why_tests_cant": "exactness for all doubles; sign and handedness errors in one view pass tests of the others", "anchors": ["stl-to-ps/geo.h: kXP..kZN", "stl-to-ps/stl-to-ps.cc: view", "stl-to-ps/stl.cc: STLFile::Rotate, STLFile::CullBackFace"]}
{"id": "C79", "title": "Angle views turn about z and then tilt", "statement": "In exact arithmetic, view = [a, b] turns the model by a degrees counterclockwise about the z axis and then tilts it by b degrees about the page's horizontal axis, so that [0, 0] looks like Z+ and [0, 90] like Y-.", "quantifier": "all pairs of real angles, all points", "why_tests_cant": "angles are continuous; the composition order only shows for general angles", "anchors": ["stl-to-ps/geo.cc: Rotate", "stl-to-ps/stl-to-ps.cc: view"]}
{"id": "C80", "title": "Names of models, their paths and unused loads do not matter", "statement": "If two scripts have the same pages except that their draws name models differently, and the named models resolve to files with the same contents, and one converts and the loads of the other are all readable, then the other converts too and both outputs are identical byte for byte. Additional loads that no page uses change nothing.", "quantifier": "all pairs of scripts and file systems, every arithmetic and environment", "why_tests_cant": "a relation between two unbounded scripts and file systems", "anchors": ["stl-to-ps/stl-to-ps.cc: LoadFiles, DrawToPage::operator()(const Draw&)", "stl-to-ps/main.cc: main"]}
{"id": "C81", "title": "A page's output depends only on the page and the models it draws", "statement": "In any two successful conversions, a page saying the same about the same models gives the same bytes after its opening lines, whatever other pages, loads and script name surround it; the opening lines depend only on the page's number and the number of pages.", "quantifier": "all pairs of scripts, file systems, pages", "why_tests_cant": "hidden state carried from page to page shows only in particular sequences of pages", "anchors": ["stl-to-ps/stl-to-ps.cc: GeneratePages, DrawToPage", "stl-to-ps/ps.cc: operator<<"]}
{"id": "C82", "title": "Syntax errors are reported at the first token that cannot continue any valid script", "statement": "A script that does not match the grammar produces exactly one parse error, no output and a failing status; the error names the line of the first token such that the tokens up to it begin no valid script, or the last line if the script ends too early, and a script whose tokens match the grammar is never rejected by the parser.", "quantifier": "all byte strings", "why_tests_cant": "the prefixes of valid scripts and the ways to leave them are infinitely many", "anchors": ["stl-to-ps/parser.y: grammar rules", "stl-to-ps/lexer.l: YY_USER_ACTION", "stl-to-ps/stl-to-ps.cc: main"]}
{"id": "C83", "title": "Every error message is true and names the line of what it is about", "statement": "Each message about a script that parses is true of the script and the model files: a property called a duplicate repeats an earlier one of the same block, a property called unexpected is not a documented one, a missing one is missing, an unknown model, view or function is unknown, an unreadable file cannot be read, and so on; its line is that of the token that starts the thing; and a successful conversion prints none.", "quantifier": "all scripts, files, arithmetics and environments; every message", "why_tests_cant": "a test fixes one wrong script and compares one message; that no wrong script gets a false message is a claim about all of them", "anchors": ["stl-to-ps/stl-to-ps.cc: SYM_ERROR in LoadFiles, Visit(...)", "stl-to-ps/ast.h: SYM_ERROR", "stl-to-ps/stl-to-ps.cc: Flatten"]}
{"id": "C84", "title": "The defects of every block are reported in one run", "statement": "A conversion of a script that parses reports, with the text and the place of the thing concerned: every load statement whose name is taken, whose file does not exist or holds no model; and, once all models are loaded, on every page, in every draw and text block and in every dimension, every repeated property, every undocumented property, every missing property, every page name that is not a string, wrong scale, unknown model, unknown or wrongly typed view, and every value that is not a point where one is needed, as far as the earlier checks of the same block passed. A defect in one block never hides those of another. Such a script is never converted.", "quantifier": "all scripts, files, arithmetics and environments; every defect of the kinds listed, in any number and combination", "why_tests_cant": "a test checks one wrong script for one message; that no combination of defects makes one of them go unmentioned is a claim about all scripts", "anchors": ["stl-to-ps/stl-to-ps.cc: LoadFiles", "stl-to-ps/stl-to-ps.cc: GeneratePages", "stl-to-ps/stl-to-ps.cc: operator()(const Draw&), operator()(const Text&), operator()(const Dim&), operator()(const Angle&)", "stl-to-ps/stl-to-ps.cc: Flatten"]}
{"id": "C85", "title": "Numbers of scripts are read to single precision, numbers of models to double precision", "statement": "Every number a script document holds is a finite float: the one nearest to a numeral written in the script (error at most one part in 2^24, whole numbers up to 2^24 exact). The two parts of a scale are the whole parts of such floats. Every coordinate of a loaded model is the double nearest to a numeral written in its file. Numerals between 2^-126 and 2^127 (or zero) never make the program throw.", "quantifier": "all scripts, model files and math libraries; all environments whose stof and RE2 conversions round to the nearest float and double", "why_tests_cant": "a test reads a few numerals; that no numeral of any script is misread, dropped or read with another precision is a claim about all of them", "anchors": ["stl-to-ps/lexer.l: {NUMBER} std::stof", "stl-to-ps/parser.y: scale", "stl-to-ps/stl.cc: STL::ReadFrom"]}
{"id": "C86", "title": "The PostScript has every coordinate to six figures", "statement": "In the output of a successful conversion, read as PostScript, each page is a sequence of texts, arcs and lines, one for each on the page and in that order; each coordinate, radius and angle is a word that reads as a number within 5e-6 relative of the one computed (when that is finite), in the operand position where moveto, lineto, arc and show expect it.", "quantifier": "all scripts, files and math libraries, in binary64 and in exact arithmetic; all environments whose absl::Substitute prints the nearest six figure decimal", "why_tests_cant": "a test compares one output; that no coordinate of any drawing is swapped, lost or printed with too few digits is a claim about all outputs", "anchors": ["stl-to-ps/ps.cc: PostscriptRender", "stl-to-ps/stl-to-ps.cc: RenderPages"]}
{"id": "C87", "title": "Dimension labels show the measured value to the decimals of their format", "statement": "The label of a dim is the distance along its direction, that of an angle the angle between its sides followed by ' deg', that of dia and rad the diameter and the radius of the measured circle; the value is written with as many decimals as the format says (three, for angles one, without fmt), surrounded by the text of the format, and differs from the exact value by at most half a unit of the last decimal.", "quantifier": "all dimensions, formats of the form text %.nf text with n up to 100, views and models, in exact arithmetic; all environments whose absl::StrFormat prints %.nf correctly rounded", "why_tests_cant": "a test checks one label; that no dimension in any view is labelled with a wrong value is a claim about all of them", "anchors": ["stl-to-ps/stl-to-ps.cc: operator()(const Dim&), operator()(const Angle&), operator()(const Dia&), operator()(const Rad&)", "stl-to-ps/stl-to-ps.cc: ParsedFormat"]}
{"id": "C88", "title": "Rounding does not show in the lengths of dims", "statement": "Computed in doubles, the label of a dim in a named view or a view by angles is the distance from 'from' to 'to' along 'dir' within half a unit of the last decimal plus 2^(k-33), where 2^k bounds the coordinates of at, from and to; with coordinates up to a metre in millimetres the extra error is about 10^-7.", "quantifier": "all dims, coordinates from 2^-300 to 2^300 in size, directions of length 2^-200 to 2^200, formats text %.nf text, associations of the three-term sums, mathematical libraries whose sine and cosine are correct to 2^-53", "why_tests_cant": "rounding errors add up differently for every input; a test shows that some label is right, not that no coordinates lose digits by cancellation", "anchors": ["stl-to-ps/stl-to-ps.cc: operator()(const Dim&)", "stl-to-ps/ast.cc: GetMatrixByName, GetMatrixByAng", "stl-to-ps/geo.h: Rotate"]}
{"id": "C89", "title": "Rounding does not show in the labels of angles", "statement": "Computed in doubles, the label of an angle is the angle between its sides in degrees within half a unit of the last decimal plus 2^(m-24), for sides whose cosine is at most 1 - 2^(-2m) in size; sides in one direction are never labelled.", "quantifier": "all angles whose sides are directions of length 2^-200 to 2^200 or points at least a thousandth of the largest coordinate away from the apex, m from 0 to 14, formats text %.nf text, mathematical libraries correct to 2^-53 (sine, cosine) and 2^-50 (acos)", "why_tests_cant": "the arc cosine magnifies errors without limit near 0 and 180 degrees; where it begins to show and which parallel sides slip through the test for zero depends on the last bit of every input", "anchors": ["stl-to-ps/stl-to-ps.cc: operator()(const Angle&)", "stl-to-ps/geo.h: PI"]}
{"id": "C90", "title": "Ties in sorting do not change the drawing", "statement": "std::sort may leave elements that compare equal in any order. The lines drawn for a view of a model are the same, in the same order, whichever order it chooses: hidden points at equal distance are equal points of the edge, and spans that start at the same place erase the same part of the edge in either order.", "quantifier": "every implementation of std::sort that meets its specification, every model with proper facets, every rotation, exact arithmetic; that generating lines never aborts is proved for every implementation of std::sort with the rounding of doubles (C27, C61, C64)", "why_tests_cant": "a test runs one implementation of std::sort", "anchors": ["stl-to-ps/stl.cc: STLFile::ToLines"]}
{"id": "C91", "title": "Rounding does not move points in a view", "statement": "Computed in doubles, a point of the model appears in every named view and in every view given by two angles of at most 1024 degrees where exact geometry with the true value of pi puts it, within 2^(k-43) in each coordinate, where 2^k bounds the coordinates of the point: with coordinates up to a metre in millimetres within about 10^-10.", "quantifier": "all points with coordinates from 2^-900 to 2^900 in size, all six named views and all pairs of angles up to 1024 degrees, associations of the three-term sums, mathematical libraries whose sine and cosine are correct to 2^-53", "why_tests_cant": "a test compares some views of some points with a tolerance; the error depends on the digits of the point and on how the angle in radians was rounded", "anchors": ["stl-to-ps/ast.cc: GetMatrixByName, GetMatrixByAng", "stl-to-ps/geo.h: PI", "stl-to-ps/geo.cc: Rotate"]}
{"id": "C92", "title": "Every line drawn lies along a side of a facet, whatever is rounded", "statement": "Computed in doubles, both ends of every line of a drawing are within 2^(k-41) of points of one and the same side of a facet of the model that faces the viewer, as exact geometry shows it in that view; 2^k bounds the coordinates of the model. Rounding in the crossing points, in the order of the hidden spans or in the choice of what is hidden never produces a line elsewhere.", "quantifier": "all models with coordinates from 2^-700 to 2^500 in size, all named views and pairs of angles up to 1024 degrees, implementations of std::sort, associations of the sums, libraries with sine and cosine correct to 2^-53", "why_tests_cant": "a nearly parallel pair of edges divides by a rounded number near zero, so a stray line needs a special model; no finite set of models excludes it", "anchors": ["stl-to-ps/stl.cc: STLFile::ToLines, STLFile::EdgeCrosses, GenerateLines", "stl-to-ps/stl.cc: STLFile::Rotate", "stl-to-ps/ast.cc: GetMatrixByAng"]}
{"id": "C93", "title": "The generated parser decides the grammar", "statement": "The grammar of parser.y has no LALR(1) conflict, so the parser generator resolves nothing on its own; the states and lookaheads of the tables are those the definition of LALR(1) gives. The table driven parser built from it, with its default reductions, ends on every sequence of tokens, accepts exactly the sequences the grammar derives and builds the document of the derivation, and reports a syntax error exactly at the first token that cannot continue a script; it stops otherwise only when a number cannot be converted.", "quantifier": "all sequences of tokens, including tokens the scanner has rejected; every arithmetic", "why_tests_cant": "the parser has 95 states and unbounded stacks; a conflict or a default reduction taken too early shows only for particular sequences of tokens", "anchors": ["stl-to-ps/parser.y", "stl-to-ps/parser.cc: Parse", "stl-to-ps/lexer.l"]}
{"id": "C94", "title": "The parser neither leaks an object nor deletes one twice", "statement": "While a script is parsed, every object that the scanner and the actions of the grammar create has exactly one owner at every moment; when the parse ends, with success, with a syntax error at any place or with an exception from the conversion of a number, each object has been deleted exactly once or belongs to the document, and the document holds exactly the objects its pages refer to.", "quantifier": "all sequences of tokens, every place where the parse may stop; every arithmetic", "why_tests_cant": "each of the 35 actions and every state of the parser at an error is a separate path on which an object may be dropped or deleted twice, and the effect is seldom visible", "anchors": ["stl-to-ps/parser.y: actions and %destructor", "stl-to-ps/ast.h: PointFunc, Meta::New, Model, Draw, Text, Page", "stl-to-ps/ast.cc: Document::Add", "stl-to-ps/lexer.l"]}
{"id": "C95", "title": "Lines are on the paper where the view has the sides of facets", "statement": "In double precision, every line of a drawn model, in the page and as printed in the PostScript program with six figures, follows a side of a drawn facet: its ends are, to within a stated distance in points, at offset + 72*scale*(place in the view - middle of the box around the drawn facets), where the view, the offset and the scale are those the script asks for.", "quantifier": "all models with coordinates up to 2^k, all scales with 72a/b up to 2^j and k+j <= 14, all places up to 1024 inches, all views, all implementations of sin, cos and sqrt within their usual bounds; all scripts", "why_tests_cant": "the error is a sum over the roundings of the rotation, the box, the scaling, the shift and the printing of every number; tests see a few drawings and no bound", "anchors": ["stl-to-ps/stl-to-ps.cc: operator()(const Draw&)", "stl-to-ps/ps.cc: PostscriptRender", "stl-to-ps/stl.cc: STLFile::ToLines"]}
{"id": "C96", "title": "A successful run has written the complete drawing", "statement": "When the program exits with status 0 the output file contains the complete drawing, also when the device fails while the output is written.", "quantifier": "all scripts, files and amounts of room on the device", "why_tests_cant": "a device that fails after some number of bytes is not part of any test environment, and each number of bytes is another case", "anchors": ["stl-to-ps/stl-to-ps-main.cc: main", "stl-to-ps/stl-to-ps.cc: RenderPages"]}
{"id": "C97", "title": "A model file that was cut short is rejected", "statement": "If a model file that can be read loses its end, loading the rest is refused with a message; it is never read as a model of other facets than those of the complete file, and reading never goes out of bounds.", "quantifier": "all texts of models and all places where they may be cut", "why_tests_cant": "a text may be cut at every byte, inside numbers and keywords too", "anchors": ["stl-to-ps/stl.cc: STLFile::Make"]}
{"id": "C98", "title": "Every lookup in an ordered container is one its order can handle", "statement": "While near(), center() and the circles of dia and rad are computed, no element is looked up in or added to a std::set or std::multimap whose order is not a strict weak order on the elements and what is looked up (which would be undefined behaviour).", "quantifier": "all scripts and models", "why_tests_cant": "an unordered key usually does no visible harm in a test run, and whether one arises depends on rounding of the coordinates of all vertices", "anchors": ["stl-to-ps/ast.cc: Closest, near and center (55-156)", "stl-to-ps/stl-to-ps.cc: dia and rad (273-319)"]}
{"id": "C99", "title": "The Bazel rule finds its models, and where Bazel puts them does not show", "statement": "In an action of the stl2pdf rule, a model named in the script by its path below its root is the input with that path, whether it is a source or a generated file. The drawing and the exit status do not depend on the directories Bazel uses for generated files. The action writes no file but the declared .ps.", "quantifier": "all targets, sandboxes and scripts", "why_tests_cant": "the roots depend on the configuration, the platform and the Bazel version; a test runs in one of them", "anchors": ["stl-to-ps/rule.bzl: _stl2pdf_impl (30-51)", "stl-to-ps/stl-to-ps.cc: LoadFiles (120-168)", "stl-to-ps/stl-to-ps-main.cc: main (42-71)"]}
{"id": "C100", "title": "A drawing is at most quadratically larger than its models", "statement": "A draw of a model with n facets and k dimensions adds at most 3n(n+1) + 8k lines, k arcs and k texts to its page. A text adds at most one text per line of it, and the title adds two lines and a text. Nothing else is on a page.", "quantifier": "all scripts and models, in any arithmetic", "why_tests_cant": "the number of pieces an edge is cut into depends on how all facets overlap it; tests only show the numbers for a few models", "anchors": ["stl-to-ps/stl.cc: ToLines, GenerateLines, Index", "stl-to-ps/stl-to-ps.cc: GeneratePages, draw and dimensions"]}
{"id": "C101", "title": "Measured circles in double precision", "statement": "When points of a model lie on a circle, the centre and the radius that rad, dia and center() measure there differ from that circle by rounding only, and the labels of rad and dia show its size to the digits asked for.", "quantifier": "all finite point sets in doubles, all targets, all orders in which the sums of the fit are taken", "why_tests_cant": "the error depends on where the points are, how they are spread and in which order the matrix library adds; a circle that is measured well near the origin says nothing about one far from it", "anchors": ["stl-to-ps/center.cc: FindCircle", "stl-to-ps/ast.cc: Closest, Between, PointFunc::Center", "stl-to-ps/stl-to-ps.cc: Rad and Dia dimensions"]}
{"id": "C102", "title": "The parser's stack grows with open parentheses only", "statement": "At every moment of parsing, the stack of the parser holds at most 20 entries and two more for each parenthesis open at that place of the script. A script whose points have at most m nested functions is parsed with at most 22 + 2m entries, however many models, pages, draws, texts, dimensions, properties and pieces of strings it has. Nested functions do take two entries each, so there is no bound for all scripts.", "quantifier": "every list of tokens, right or wrong, and every step of the parser on it", "why_tests_cant": "the size of scripts is unbounded, and the stack is not observable in tests; a list rule written right recursive would pass every test", "anchors": ["stl-to-ps/parser.y: input, page_parts, draw_parts, text_parts, dim_parts, string_lit, point", "stl-to-ps/parser_support.cc"]}
{"id": "C103", "title": "Parsing takes linear time", "statement": "The parser is done after at most two steps (shifts and reductions) per token and three more, whether the script is right or wrong; since every token takes at least one byte, after at most two steps per byte of the script and three more.", "quantifier": "every list of tokens and every script text", "why_tests_cant": "scripts are unbounded in size; tests neither count steps nor try scripts that make an LR parser reduce without end", "anchors": ["stl-to-ps/parser.y: all rules", "stl-to-ps/lexer.l", "stl-to-ps/parser_support.cc"]}
{"id": "C104", "title": "A document is no larger than its script", "statement": "An accepted script has at least five tokens for each model it loads, three for each page, four for each drawing or text, four for each dimension, three for each property and three for each function applied to a point, all together; and at least one byte for each token. So the document that is built has no more parts than the script has bytes. The count is exact for some scripts with any number of dimensions.", "quantifier": "every accepted script", "why_tests_cant": "a bound over scripts of every size; tests only look at single documents", "anchors": ["stl-to-ps/parser.y: all actions", "stl-to-ps/ast.h"]}
