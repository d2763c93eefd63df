#!/usr/bin/env python3
"""Writes properties.jsonl (kept as a script so that the list stays easy to edit)."""
import json, os
P = []
def p(id, title, statement, quantifier, why, anchors):
    P.append(dict(id=id, title=title, statement=statement, quantifier=quantifier,
                  why_tests_cant=why, anchors=anchors))
PA = "src/parser.rs"
def a(f, *syms): return ["%s: %s" % (f, s) for s in syms]

p("C01", "Parsing always ends and never indexes out of range",
  "Parser::parse, run on any text, comes back: it yields Ok, yields Err, or panics because of integer-literal exponent overflow. It never loops forever, never reads outside the text or the token list, and never trips the `n > 0` assertion or a fixed-size list index.",
  "every input string, every character classification consistent with ASCII, every Float implementation, both overflow-check settings",
  "The loops and recursions are driven by the text; tests run finitely many texts.",
  a(PA, "Tokenizer::tokenize", "Tokenizer::tokenize_one", "Tokenizer::tokenize_num", "Parser::parse", "Parser::parse_many", "Parser::parse_param_lists"))
p("C02", "Parsing panics only on integer exponent overflow",
  "Without overflow checks Parser::parse never panics. With overflow checks it panics exactly when tokenization reaches an integer literal with a non-negative integer exponent whose value m*10^(e mod 2^32) (or whose power of ten) does not fit the machine integer; in particular a text with no letter 'e' never panics.",
  "every input string and both build profiles",
  "Panics hide in rare literals; a test only covers the literals it contains.",
  a(PA, "Tokenizer::tokenize_num"))
p("C03", "Debug and release builds agree",
  "If parsing a text with overflow checks on does not panic, parsing the same text with overflow checks off yields the same result.",
  "every input string", "Needs a comparison of two builds on every text.",
  a(PA, "Tokenizer::tokenize_num", "Parser::parse"))
p("C04", "Tokenization is exactly the lexical grammar",
  "Tokenizing a text succeeds with a token list if and only if the text splits, left to right with longest match, into white space, '#' comments, brackets, quoted strings with backslash escapes, identifiers and numbers, and the list is the list of those tokens in order. No token is lost, duplicated, merged or invented.",
  "every input string and every token list",
  "An equivalence with a grammar over all strings.",
  a(PA, "Tokenizer::tokenize", "Tokenizer::tokenize_one", "Tokenizer::tokenize_num", "Tokenizer::tokenize_str", "Tokenizer::tokenize_id"))
p("C05", "Token positions are true source positions",
  "The position recorded for each token is the 1-based row and column of the token's first character in the text after CRLF normalisation; positions of successive tokens strictly increase in document order.",
  "every input string and every token in the output",
  "Column bookkeeping depends on every character read before the token.",
  a(PA, "Tokenizer::next", "Tokenizer::tokenize_one", "Token", "Pos"))
p("C06", "CRLF and LF files parse identically",
  "For every text without CR LF pairs, replacing each line feed by CR LF yields a text with the same parse result, positions included. (For a text that already has a CR LF pair the rewriting leaves a stray CR and the results can differ.)",
  "every input string", "Unbounded placement of line ends, including inside strings and comments.",
  a(PA, "Tokenizer::new", "Parser::parse"))
p("C07", "Layout does not change the scene",
  "Two texts whose token lists carry the same token kinds give parse results that are equal once positions are erased: white space, line breaks and comments between tokens affect only the recorded positions.",
  "every pair of token lists with equal kinds; every text with white space or comments inserted between tokens",
  "Relational property of two unbounded runs.",
  a(PA, "Tokenizer::tokenize_one", "Parser::parse"))
p("C08", "Every string value can be written as a literal",
  "For every character sequence there is a quoted literal (escape backslash and double quote with a backslash, newline as \\n) that tokenizes to exactly that sequence, wherever it is placed in a text; an unterminated literal is an error.",
  "every character sequence and every following text",
  "Escapes interact with every possible content.",
  a(PA, "Tokenizer::tokenize_str"))
p("C09", "Integer literals denote their decimal value",
  "Every integer in the isize range, written in decimal with optional '+' or '-' sign, tokenizes to that integer; a decimal literal out of range is an error, never a wrapped or saturated value.",
  "every integer and every following text not extending the literal",
  "2^64 values and unbounded literal length.",
  a(PA, "Tokenizer::tokenize_num"))
p("C10", "An integer literal with exponent denotes m*10^e",
  "Expected: `mE` literals such as 5e3 that produce an integer token produce m*10^e. True for exponents below 2^32 when the result fits; false in general because the exponent is truncated to 32 bits (1e4294967296 tokenizes to 1).",
  "every mantissa and exponent", "The failing exponents are astronomically rare.",
  a(PA, "Tokenizer::tokenize_num"))
p("C11", "A lexical error anywhere rejects the whole file",
  "If tokenization of the text fails, Parser::parse fails with the same message, even when the offending characters come after the world block.",
  "every input string", "Quantifies over everything that may precede the bad character.",
  a(PA, "Parser::new", "Parser::parse", "From<TokenizerError> for ParserError"))
p("C12", "Parsing is exactly the scene grammar",
  "On a token list, parsing succeeds with a result if and only if the list has a prefix derivable in the declarative scene grammar (pre-directives, WorldBegin, directives, closer) with that result.",
  "every token list and every result", "Equivalence with a recursive grammar of unbounded depth.",
  a(PA, "Parser::parse", "Parser::parse_predirectives", "Parser::parse_directive", "Parser::parse_directives", "Parser::parse_param_list"))
p("C13", "A successful parse is pre-directives followed by a world block",
  "Whenever parsing succeeds the second component is a World block, its position is that of the first WorldBegin identifier that starts a directive, and every pre-directive lies before it.",
  "every successful parse", "Must hold for every accepted text.",
  a(PA, "Parser::parse", "Parser::parse_predirectives"))
p("C14", "Nothing after the first block closer matters",
  "If a scene parses, its result is unchanged when everything after the first closing identifier (AttributeEnd, TransformEnd or WorldEnd) reached by the parser is replaced by any other tokens.",
  "every successful parse and every replacement suffix", "Quantifies over all suffixes.",
  a(PA, "Parser::parse_directives", "Parser::parse"))
p("C15", "No directive of the world block is lost",
  "Expected: every directive written between WorldBegin and WorldEnd appears in the result. False: a block closer is not consumed, so closing an inner block closes all enclosing blocks and later directives are dropped. True for scenes in which a block is only ever the last item of its parent.",
  "every scene", "Arbitrary nesting depth and order.",
  a(PA, "Parser::parse_directives"))
p("C16", "Block closers match their openers",
  "Expected: a block opened by AttributeBegin is only closed by AttributeEnd, and so on. False: any of the three closers closes any block, and one closer closes all of them.",
  "every scene", "Arbitrary nesting.",
  a(PA, "Parser::parse_directives"))
p("C17", "An unclosed or missing world is rejected",
  "If the token list has no WorldBegin identifier, or no closing identifier after it, parsing fails.",
  "every token list", "Must hold for every truncation of every scene.",
  a(PA, "Parser::parse", "Parser::parse_predirectives", "Parser::parse_directives"))
p("C18", "Transform pre-directives take exactly their number of floats",
  "Translate and Scale succeed exactly when followed by exactly 3 numbers, Rotate by 4, TransformTimes by 2, LookAt, Transform and ConcatTransform by 9, before the next non-number token; the values are stored in order. Any other count makes the whole parse fail.",
  "every token list", "Unbounded number of trailing numbers.",
  a(PA, "Parser::parse_predirective", "Parser::parse_floats"))
p("C19", "Parameters are filed under their declared type, in order",
  "Every well-formed parameter list following a directive is returned in the ParamSet vector of its declared type with its name, its position and its values, in source order, and the other vectors are unchanged.",
  "every sequence of well-formed parameters of any length", "Unbounded parameter lists in any order.",
  a(PA, "Parser::parse_param_lists", "Parser::parse_param_list", "ParamSet"))
p("C20", "Every stored parameter has well-formed values",
  "In every successful parse: a stored parameter has at least one value; spectra, rgb, xyz, blackbody and texture parameters have exactly one; a parameter name is a non-empty word without white space.",
  "every parameter of every directive at every depth of every successful parse", "Invariant over all outputs.",
  a(PA, "Parser::parse_param_list", "Parser::parse_list", "Parser::parse_spectrum"))
p("C21", "A malformed parameter is reported, not dropped",
  "Expected: if a parameter of a directive is malformed, parsing fails. False: errors inside a parameter list are swallowed, so a parameter with a missing value, an unclosed list, or an odd-length spectrum is dropped silently when an identifier follows. A malformed parameter is dropped silently exactly in those forms.",
  "every token list following a directive", "All malformed parameters in all contexts.",
  a(PA, "Parser::parse_param_lists", "Parser::parse_param_list"))
p("C22", "Positions in the result are positions of source tokens in document order",
  "Every position stored in a successful result (pre-directive, directive, block, texture, parameter) is the position of the token that starts that item; in document order they are strictly increasing.",
  "every successful parse", "Invariant over all outputs.",
  a(PA, "Parser::pos", "DirectiveStruct", "BlockStruct", "TextureStruct", "Param"))
p("C23", "Three-component parameters are unsupported and rejected",
  "point3fs, vector3fs and normal3fs are empty in every result, and a parameter header naming any type outside the eleven supported ones makes the parse fail.",
  "every successful parse; every token list", "Invariant over all outputs.",
  a(PA, "Parser::parse_param_list", "ParamSet"))
p("C24", "Scenes survive printing and reparsing",
  "For every scene value whose parameters are well-formed and whose blocks are each the last child of their parent, printing it as tokens and parsing the tokens gives the same scene (up to positions).",
  "every such scene of any size", "Round-trip over an infinite family.",
  a(PA, "Parser::parse", "PreDirective", "Directive"))
p("C25", "End-of-input error is distinguished",
  "Parsing returns the Eof error, rather than a message, exactly when the tokens run out where a pre-directive or a directive (or a closer) was expected; the empty text is such a case.",
  "every input string", "Truncation at every point of every scene.",
  a(PA, "Parser::peek", "Parser::pos", "ParserError::Eof"))
p("C26", "Stack use of parsing is bounded",
  "Expected: the call depth used by tokenizing and parsing does not grow with the input. False: consecutive comments, chained exponents and nested blocks each cost one call frame per item, so no bound works; depth is at most linear in the length.",
  "every bound and every input", "A test exhibits one depth at a time.",
  a(PA, "Tokenizer::tokenize_one", "Tokenizer::tokenize_num", "Parser::parse_directive"))

p("C27", "Texts are tokenized line by line",
  "If a text tokenizes, then appending a line feed and a second text tokenizes exactly when the second text does, and the result is the first token list followed by the second one moved down by the number of lines of the first; likewise for panics.",
  "every pair of texts", "All pairs of texts.",
  a(PA, "Tokenizer::tokenize", "Tokenizer::tokenize_one"))

p("C28", "Lexical errors are exactly the specified ones",
  "The tokenizer rejects a text with message m exactly when the text consists of tokens and layout up to a place where no token starts, and m is the message specified for that place (unexpected character, unterminated string or escape, malformed number). A position in the message is that of a place of the text, and a character is reported with its own position.",
  "every text and every message", "All malformed texts; tests sample a few.",
  a(PA, "Tokenizer::tokenize", "Tokenizer::tokenize_one", "Tokenizer::tokenize_num", "Tokenizer::tokenize_str", "TokenizerError"))
p("C29", "Syntax errors are exactly the specified ones",
  "Parsing a token list fails with message m exactly when the specified error relation holds: some pre-directive or directive is malformed (or is followed by something other than an identifier, counting from where the reading of its parameters stopped) and everything before it is well-formed. Scenes, incomplete scenes and errors share out all token lists, each error has one message, positions in it are those of tokens and a token is reported with its own position.",
  "every token list, every text and every message", "All malformed token lists; tests sample a few.",
  a(PA, "Parser::parse", "Parser::parse_directive", "Parser::parse_directives", "Parser::parse_predirective", "Parser::parse_predirectives", "Parser::parse_param_lists", "ParserError"))

B = "src/core/boundingbox.rs"; V = "src/core/vector.rs"; M = "src/core/matrix.rs"; T = "src/core/transform.rs"
N = "src/core/normal.rs"; PT = "src/core/point.rs"; R = "src/core/ray.rs"; MO = "src/core/mod.rs"
p("C30", "pmin and pmax return an extremal element",
  "On a non-empty slice without NaN, pmin (pmax) returns an element of the slice that is <= (>=) every element; on an empty slice it panics; NaNs after the first position are ignored and a NaN in the first position is returned.",
  "every slice of any length of floats or integers", "Unbounded slices, NaN placement.",
  a(MO, "pmin", "pmax"))
p("C31", "Bounds3::new is the smallest box around two points",
  "For NaN-free points the constructed box satisfies p_min <= p_max on each axis, contains both points, is contained in every box containing both points, and does not depend on the order of the points.",
  "every pair of NaN-free f32 or i64 points", "All pairs of points.", a(B, "Bounds3::new", "Bounds3::new_pt"))
p("C32", "union is the least upper bound of boxes",
  "For NaN-free normalised boxes, every point inside either box is inside the union, and the union is inside every box that contains both; union is commutative, associative and idempotent as a set of points.",
  "every pair (triple) of NaN-free boxes, f32 and i64", "All boxes, all points.", a(B, "Bounds3::union"))
p("C33", "union_pt adds exactly the point",
  "union_pt(b, p) contains p and all of b and is the smallest such box.",
  "every NaN-free box and point, f32 and i64", "All boxes, all points.", a(B, "Bounds3::union_pt"))
p("C34", "intersect is set intersection",
  "Expected: a point is inside intersect(a,b) exactly when it is inside a and inside b. True whenever the boxes overlap; false for disjoint boxes, where the result is the non-empty gap box between them.",
  "every pair of NaN-free normalised boxes and every point", "All boxes, all points.", a(B, "Bounds3::intersect"))
p("C35", "overlaps decides common points",
  "For NaN-free normalised boxes overlaps(a,b) is true exactly when some point is inside both; it is symmetric.",
  "every pair of boxes", "Existential over points for all boxes.", a(B, "Bounds3::overlaps"))
p("C36", "inside and inside_exclusive agree off the upper faces",
  "inside_exclusive(p) holds exactly when inside(p) holds and no coordinate equals the upper bound; a point with a NaN coordinate is inside nothing.",
  "every box and point including NaN, f32 and i64", "All boxes, points.", a(B, "Bounds3::inside", "Bounds3::inside_exclusive"))
p("C37", "expand by a non-negative amount only grows the box",
  "For delta >= 0, every point inside b is inside expand(b, delta), in f32 arithmetic with rounding and in i64 arithmetic without overflow; with i64 overflow and checks on it panics.",
  "every box, delta and point", "Rounding cases are unbounded.", a(B, "Bounds3::expand"))
p("C38", "corner enumerates the eight corners",
  "corner(i) depends only on the low three bits of i, has bit set -> lower bound and bit clear -> upper bound on the matching axis (the opposite of pbrt), each corner of the box is corner(i) for some i < 8, and each corner of a normalised NaN-free box is inside it.",
  "every box and every index", "All indices.", a(B, "Bounds3::corner"))
p("C39", "new_inf is the box of everything",
  "new_inf contains every NaN-free point (it is not the empty box of pbrt); union with it gives everything and intersecting with it changes nothing.",
  "every NaN-free point and box, f32 and i64", "All points.", a(B, "Bounds3::new_inf", "ElemType::max_value"))
p("C40", "maximum_extent and max_dimension name a longest axis",
  "max_dimension returns an axis whose component is >= the other components, ties going to the higher axis; maximum_extent is max_dimension of the diagonal.",
  "every NaN-free vector / box", "All triples.", a(B, "Bounds3::maximum_extent") + a(V, "Vector3::max_dimension") + a(N, "Normal3::max_dimension"))
p("C41", "offset gives relative coordinates in [0,1]",
  "For a finite box with finite extents and a point inside it, each component of offset is between 0 and 1 under f32 rounding on every axis of positive extent; the lower corner maps to 0 and the upper corner to 1.",
  "every such f32 box and point", "Rounding of subtraction and division for all inputs.", a(B, "Bounds3::offset"))
p("C42", "volume and surface_area are non-negative and monotone",
  "In exact arithmetic, for normalised boxes volume and surface_area are >= 0 and do not decrease when a box is enlarged; for i64 the result is exact when no intermediate overflows.",
  "every pair of nested boxes", "All boxes.", a(B, "Bounds3::volume", "Bounds3::surface_area", "Bounds3::diagonal"))
p("C43", "bounding_sphere contains the box",
  "In exact arithmetic the sphere returned for a normalised box contains every point of the box. In f32 the centre of a finite box lies inside the box provided the coordinate sums do not overflow; when they do overflow, the radius 0 is returned.",
  "every box and point", "All boxes, all points.", a(B, "bounding_sphere"))
p("C44", "lerp interpolates",
  "lerp(0)=first, lerp(1)=second, and for 0<=t<=1 the result lies between them (exact arithmetic); box lerp maps [0,1]^3 into the box and inverts offset.",
  "every t and end points", "All reals.", a(MO, "lerp") + a(PT, "lerp") + a(B, "lerp"))
p("C45", "Iterating a Bounds2 always ends and never overflows",
  "The iterator of a Bounds2 over i64 yields finitely many points and never overflows, for every pair of corners; the yielded sequence is exactly row-major from just after (p_min.x, p_min.y), restarting each later row at x = 0, up to and including p_max.",
  "every pair of i64 corner points", "Overflow and termination over the full i64 range.", a(B, "Bounds2Iter::next", "IntoIterator for Bounds2"))
p("C46", "Iterating a Bounds2 visits each lattice point of the box once",
  "Expected: the points visited are exactly the integer points of the box. False: the first point is skipped and rows restart at 0 instead of p_min.x. For p_min = (0, y0) and p_max >= p_min, exactly the points of the closed box except p_min are visited, each once.",
  "every integer box", "All boxes.", a(B, "Bounds2Iter::next"))
p("C50", "Matrix4::inverse inverts",
  "In exact arithmetic, when inverse returns B for A then A*B = B*A = identity.",
  "every real (or rational) 4x4 matrix", "All matrices and pivot orders.", a(M, "Matrix4::inverse", "mat4swap"))
p("C51", "Matrix4::inverse panics exactly on singular matrices",
  "In exact arithmetic inverse panics if and only if the matrix has no inverse (equivalently determinant zero), and the first of its two panics is unreachable.",
  "every real (or rational) 4x4 matrix", "Singular matrices form a measure-zero set.", a(M, "Matrix4::inverse"))
p("C52", "Matrix multiplication laws",
  "Matrix4 multiplication is associative, distributes over addition, and has the identity matrix as unit, in exact arithmetic and in wrapping i64 arithmetic; in f32 the identity is a unit (up to the sign of zero) for finite matrices.",
  "every triple of matrices", "All matrices.", a(M, "Mul for Matrix4", "Add for Matrix4"))
p("C53", "Transpose laws",
  "Transpose is an involution, swaps indices, and reverses products: (A*B)^T = B^T * A^T (for i64 wrapping and exact arithmetic).",
  "every pair of matrices", "All matrices.", a(M, "Matrix4::transpose"))
p("C54", "i64 arithmetic is exact or panics under overflow checks",
  "With overflow checks, dot, cross, len_sq, matrix product and box volume on i64 either panic or return the exact integer result; without overflow checks they return it modulo 2^64.",
  "every i64 input", "Overflow boundaries in sums of products.", a(V, "Vector3::dot", "Vector3::cross", "Vector3::len_sq") + a(M, "Mul for Matrix4") + a(B, "Bounds3::volume"))
p("C55", "Transform pairs stay inverse",
  "If a Transform's two matrices are mutual inverses, so are those of its inverse() and transpose(); inverse and transpose are involutions and commute; new_ builds such a pair for every invertible matrix (exact arithmetic).",
  "every transform", "All matrices.", a(T, "Transform::inverse", "Transform::transpose", "Transform::new_"))
p("C56", "translate carries a correct inverse",
  "Transform::translate(d) has m * m_inv = identity for every finite d, exactly even in f32; translate(d).inverse() equals translate(-d).",
  "every finite f32 (and real) vector", "All vectors.", a(T, "Transform::translate"))
p("C57", "scale carries a correct inverse",
  "Expected: Transform::scale(x,y,z) with non-zero factors has m * m_inv = identity. False for every such x,y,z: the stored inverse has z in its last row.",
  "every non-zero real factors", "All factors.", a(T, "Transform::scale"))
p("C58", "has_scale detects changed axis lengths",
  "In exact arithmetic has_scale is false for identity and translations and any rotation (orthonormal upper 3x3 block), and true exactly when some transformed axis has squared length outside [0.999, 1.001].",
  "every transform", "All matrices.", a(T, "Transform::has_scale", "Transform::is_identity") + a(MO, "not_one"))
p("C60", "Dot and cross product laws",
  "In exact arithmetic the cross product is orthogonal to both factors, anticommutative, satisfies Lagrange's identity; dot is symmetric and len_sq(v) = dot(v,v) >= 0. In f32 dot is symmetric and cross anticommutative up to the sign of zero, NaN cases included.",
  "every pair of vectors", "All vectors.", a(V, "Vector3::dot", "Vector3::cross", "Vector3::len_sq") + a(N, "Normal3::dot", "Normal3::cross"))
p("C61", "face_forward flips onto the right side",
  "The result is v or -v and its dot product with the reference is not negative, in f32 arithmetic as well.",
  "every pair of vectors incl. f32", "All vectors with rounding.", a(V, "Vector3::face_forward") + a(N, "Normal3::face_forward"))
p("C62", "Vector2 division divides",
  "Expected: (v / s) has components v.x / s and v.y / s. False: the components are multiplied by s. It panics exactly when s = 0.",
  "every vector and scalar", "All scalars.", a(V, "Div for Vector2"))
p("C63", "coordinate_system returns an orthonormal frame",
  "In exact arithmetic, for a unit vector v1 the two returned vectors have unit length and all three are mutually orthogonal; for any non-zero v1 the first is unit, both are orthogonal to v1 and the second has the length of v1; the frame is right-handed.",
  "every non-zero real vector", "All vectors.", a(V, "coordinate_system"))
p("C64", "Index and permute panic exactly out of range",
  "Indexing and permute return the named components for indices below the dimension and panic otherwise.",
  "every index triple", "All indices.", a(V, "Vector3::permute", "Index for Vector3", "Index for Vector2") + a(N, "Normal3::permute") + a(M, "Index for Matrix4"))
p("C65", "Ray::at is affine in t",
  "at(0) = o, at(1) = o + d, at(s + t) = at(s) + t*d in exact arithmetic; in f32 at(0) equals o for finite o and d.",
  "every ray and parameter", "All reals.", a(R, "Ray::at", "Ray::new_infinite"))
p("C66", "scale_differentials scales about the main ray",
  "In exact arithmetic scaling by 1 changes nothing, by 0 collapses onto the main ray, scaling by s then t equals scaling by s*t, and the main ray is untouched.",
  "every ray differential and factors", "All reals.", a(R, "RayDifferential::scale_differentials"))
p("C67", "Conversions between points, vectors and normals lose nothing",
  "Point3 -> Vector3 -> Point3 and Vector3 -> Normal3 keep all components; Point3 -> Point2 keeps x and y and panics exactly when some coordinate is NaN.",
  "every point including NaN", "All bit patterns.", a(PT, "From<Point3<T>> for Point2<T>", "From<Vector3<T>> for Point3<T>") + a(V, "From<Point3<T>> for Vector3<T>") + a(MO, "HasNan"))
p("C68", "floor and ceil bracket the point",
  "For finite f32 coordinates floor(p) <= p <= ceil(p), both are integers, and they differ from p by less than 1.",
  "every finite f32 point", "All floats.", a(PT, "floor", "ceil"))
p("C69", "Componentwise min and max",
  "min/max of points, vectors and normals take the smaller/larger component on every axis; min_component/max_component return an extremal component.",
  "every NaN-free pair", "All vectors.", a(PT, "Point3::min", "Point3::max") + a(V, "Vector3::min", "Vector3::max", "Vector3::min_component", "Vector3::max_component") + a(N, "Normal3::min"))
p("C48", "volume and surface_area of f32 boxes are non-negative numbers",
  "Expected: for a finite normalised f32 box with finite extents, volume and surface_area are not NaN, not negative, and do not decrease when the box is enlarged. True of surface_area. False of volume: it is NaN exactly when the product of the first two extents overflows and the third is zero; in all other cases it is non-negative and monotone.",
  "every finite f32/f64 box", "All floats with rounding and overflow.", a(B, "Bounds3::volume", "Bounds3::surface_area"))
p("C70", "Arithmetic of points, vectors and normals is componentwise",
  "+, -, *, /, unary - and abs of points, vectors and normals apply the operation of the element type to each component; the result panics exactly when one component does. On i64 the component operations are exact or panic (wrap without checks), division truncates and panics exactly for divisor 0 and MIN / -1; on floats they are the exact result rounded to nearest.",
  "every operand of every element type", "All operands, overflow included.", a(PT, "Add for Point3", "Sub for Point3", "Mul for Point3", "Div for Point3", "Point3::abs") + a(V, "Neg for Vector3", "Add for Vector3", "Mul for Vector3") + a(N, "Add for Normal3", "Div for Normal3"))
p("C71", "len is the Euclidean length",
  "In exact arithmetic len(v) >= 0, len(v)^2 = dot(v,v), len(v) = 0 only for the zero vector, len(u+v) <= len(u)+len(v) and len(s*v) = |s|*len(v). In f32 the length of a NaN-free vector is never NaN and never negative. For i64 vectors with overflow checks it panics or is the root of the exact sum of squares, rounded; without checks it can be NaN. Normals have the length of the vector with the same components.",
  "every vector of every element type", "All vectors.", a(V, "Vector3::len") + a(N, "Normal3::len"))
p("C72", "is_identity recognises exactly the identity matrix",
  "is_identity is true exactly when every entry of the matrix is the number 1 on the diagonal and 0 elsewhere (either zero), and such a transformation leaves every finite vector unchanged up to the sign of zero.",
  "every transformation", "All matrices.", a(T, "Transform::is_identity"))
p("C73", "Vector3::transform multiplies by the linear part",
  "transform is linear and multiplies by the upper 3x3 block; translations leave vectors unchanged (also in f32, up to the sign of zero), scale multiplies the components; a transformation with mutually inverse affine matrices and its inverse() undo each other; orthonormal columns keep dot products; the product of matrices acts as composition.",
  "every vector and transformation", "All matrices.", a(V, "Vector3::transform"))
p("C74", "New rays are unbounded and have no differentials",
  "Ray::new_infinite keeps origin and direction, has time 0 and a t_max no number exceeds; RayDifferential::new keeps the ray, has no differentials, and all auxiliary rays are zero.",
  "every ray", "All floats.", a(R, "Ray::new_infinite", "RayDifferential::new"))
p("C75", "Inverse of integer matrices",
  "For an i64 matrix converted exactly, inverse returns a two-sided inverse when the integer determinant is not zero and panics when it is; the matrix inverted by the program's main is inverted without a panic in f32 and f64.",
  "every integer matrix", "All matrices.", a(M, "Matrix4::inverse", "to_mat4f") + a("src/bin/pbrt.rs", "main"))
p("C76", "translate and scale move points as named",
  "The matrix of translate(d) sends the point p to p + d, that of scale(x,y,z) multiplies each coordinate by its factor; both keep the homogeneous coordinate 1.",
  "every point, displacement and non-zero factors", "All reals.", a(T, "Transform::translate", "Transform::scale"))
p("C77", "Error messages say where",
  "Expected: every error message contains a position. False: failed number conversions and tokens that run out inside a directive are reported without one; every other message has one.",
  "every rejected text", "All malformed texts.", a(PA, "Parser::parse", "Tokenizer::tokenize_num", "Parser::parse_string"))
p("C78", "A float literal without exponent is the nearest float",
  "A literal with a dot and no exponent denotes the f32/f64 nearest to its exact decimal value (ties to even), with the sign written, -0.0 included; no other finite float is closer. Equal values give equal floats whatever the spelling, larger values never give smaller floats, the literal is infinite exactly from the middle between the largest float and the next power of two on, and every float that is not NaN has a literal. An integer where a float is expected is converted to the nearest float.",
  "every literal, every float, f32 and f64", "Infinitely many spellings, ties, subnormals and the overflow boundary.", a(PA, "Tokenizer::tokenize_num", "Parser::parse_float"))
p("C79", "A float literal with an exponent is the nearest float",
  "Expected: m e k denotes the float nearest to m * 10^k. False even with the best possible powf: 0.1e-1 is not the float nearest to 0.01, 0.0e400 is NaN, 0.01e39 is infinite and 10.0e-46 is zero in f32. Inside the range the relative error is at most that of three roundings, and when the mantissa and the power are floats the literal is the nearest float.",
  "every literal, f32 and f64", "All mantissas and exponents; last-digit errors.", a(PA, "Tokenizer::tokenize_num"))
p("C80", "The scenes that a text can denote",
  "Up to positions, a scene is the meaning of some text exactly when it is a world block whose parameters are well-formed, in which a block is the last child of its parent, whose integers fit in isize and whose ActiveTransform names are identifiers. Every number in a parsed scene comes from a literal.",
  "every scene", "All scenes, nested to any depth.", a(PA, "Parser::parse", "Parser::parse_directive", "Parser::parse_directives", "Tokenizer::tokenize"))
p("C81", "Displayed error messages show a place and can be told apart",
  "The text of every error is one of eight fixed texts or shows, at its start or after the line about the failed list of floats, a row and a column in decimal; a position read off the text is that of a place of the input. Different errors have different texts, and no message reads like the end-of-input error. The text of an error is that of its pieces in order, with positions and counts in decimal without leading zeros.",
  "every rejected text", "All malformed texts and all pairs of them.", a(PA, "Display for Pos", "Display for ParserError", "TokenType (derived Debug)", "Parser::parse"))
p("C82", "Finite float results are within a few rounding errors of the exact value",
  "Whenever a dot product, squared length, length, cross product, transformed vector, matrix product, lerp, point of a ray, volume or surface area comes out finite in f32 or f64, it differs from the value in exact arithmetic by at most the relative error of a fixed number of roundings (2 to 5) of the sum of the absolute values of its terms, plus a fixed multiple of half the smallest positive float.",
  "all float inputs with a finite result, f32 and f64", "All combinations of magnitudes, cancellation and underflow.", a(V, "dot", "len", "cross", "transform") + a(M, "Matrix4::mul") + a(B, "volume", "surface_area", "lerp") + a(R, "at") + a(MO, "lerp"))
p("C83", "The bounding sphere computed in floats contains the box up to rounding",
  "In f32 and f64 the centre is the middle of the box up to two roundings and the radius the distance to the upper corner up to five; every point of a finite normalised box is at most radius * (1 + 7u) + 6u * |middle| + a tiny constant away from the centre (u is half a unit in the last place). Without that slack the claim is false.",
  "all boxes and points", "All boxes, all points.", a(B, "bounding_sphere"))
p("C84", "coordinate_system in floats is orthonormal up to rounding",
  "For every finite vector v1 with length between 2^-50 and 2^50 the two vectors returned in f32 or f64 are finite, the first has length 1 up to 7u, the second the length of v1 up to the factor 1 + 11u, the three are orthogonal up to 7u, 4u and 5u relative to their lengths, and right-handed.",
  "all float vectors in that range", "All directions, including those where one component is tiny.", a(V, "coordinate_system"))
p("C85", "An error that names a place is final",
  "Expected: if the tokens read so far are rejected with a message naming a place, no continuation changes that. False when the input was cut between two numbers (Translate 1 2, then 3). Otherwise it holds, on token lists and on texts; and conversely every input whose result names no place can be completed to an accepted one. A successful result is final as well.",
  "every token list and every continuation", "All pairs of a prefix and a continuation.", a(PA, "Parser::parse", "Parser::parse_param_lists", "Parser::parse_predirective", "Parser::parse_directive"))
p("C86", "Matrix4::inverse in floats on matrices with one entry per row and column, and on small translations",
  "In f32 and f64, if every row and column of a finite matrix has exactly one non-zero entry and no reciprocal overflows, inverse returns the transposed pattern with each entry replaced by its reciprocal rounded to nearest, and zeros elsewhere; with powers of two this is the exact inverse. Applied to the matrix of scale it gives what scale stores except for the wrong entry of C57. Applied to the matrix of translate with components of size at most 1 it gives what translate stores. For larger translations and for entries with an overflowing reciprocal this fails.",
  "all float matrices of these shapes, f32 and f64", "All permutations, magnitudes and signed zeros; the pivot depends on the values.", a(M, "Matrix4::inverse") + a(T, "Transform::translate", "Transform::scale"))
p("C87", "has_scale in floats",
  "In f32 and f64, for every transform whose upper 3x3 entries are finite, has_scale is false if the squared length of each column (in exact arithmetic) is within 0.000999 of 1 and true if one differs from 1 by more than 0.001001, overflow included. It is false for every translation, even by NaN. If some of these entries are not finite, it is true exactly if they all lie in one column and none of them is NaN.",
  "all float transforms", "All matrices near the thresholds.", a(T, "Transform::has_scale") + a(MO, "not_one"))
p("C88", "Products of float translations and scalings",
  "In f32 and f64, for all finite vectors a and b, the product of the matrices of translate(a) and translate(b) is the matrix of translate(a + b) with a + b added in floats, and the product of the stored inverses in the other order is its stored inverse, also when a sum overflows to infinity. The product of the matrices of two scalings is the matrix of the scaling by the products.",
  "all finite float vectors", "All magnitudes; rounding and overflow.", a(M, "Mul for Matrix4") + a(T, "Transform::translate", "Transform::scale"))
p("C89", "The tokenizer looks at every character at most five times",
  "Counting every call of peek and next of the tokenizer as one look at the place where it stands: on every input, whatever the result, each place is looked at at most five times and no place behind the end is looked at, so there are at most 5 * (length + 1) looks. The tokens are at most as many as the characters, and hold together at most as many characters.",
  "every input text", "All texts; running time is only ever sampled by tests.", a(PA, "Tokenizer::tokenize", "Tokenizer::peek", "Tokenizer::next", "Tokenizer::tokenize_one", "Tokenizer::tokenize_num", "Tokenizer::tokenize_str", "Tokenizer::tokenize_id"))
p("C90", "The parser looks at every token at most six times unless it closes a block",
  "Counting every call of peek, next and pos of the parser as one look: on every list of n tokens, whatever the result, there are at most 6n + 10 looks, none behind the end of the list, and at most six at any token that is not AttributeEnd, TransformEnd or WorldEnd. One of those is looked at at least once for every block that is open, so that no bound holds for it alone.",
  "every token list", "All token lists, including the back-tracking in lists of floats.", a(PA, "Parser::parse", "Parser::parse_directive", "Parser::parse_directives", "Parser::parse_list", "Parser::parse_list_of_n", "Parser::parse_param_lists", "Parser::peek", "Parser::next"))
p("C91", "Parsing is linear in the looks at the input and in the text copied",
  "For every text of length n: at most 5(n + 1) looks at characters, at most 6n + 10 looks at tokens, and the characters in the tokens looked at, counted once for each look (each look copies the token), are at most 78n + 120.",
  "every input text", "All texts.", a(PA, "Parser::parse", "Parser::peek", "Parser::next"))
p("C92", "The functions that read values and lists of values accept, reject and stop exactly as specified",
  "parse_int, parse_string, parse_identifier, parse_bool, parse_float, parse_point2f, parse_vector2f, and parse_many, parse_n, parse_list, parse_list_of_n, parse_one_or_list over them: in front of any tokens, whatever was read before, the function returns a value and stops at a place if and only if the grammar of values says so, returns an error and stops at a place if and only if the list of errors (given with their complete messages) says so, does nothing else, and leaves the tokens unchanged. parse_n with n = 0 panics.",
  "every token list, every place in it, every name, every n", "The tests of these functions only ask whether there was an error; most of these errors are swallowed by parse_param_lists and no run of parse shows them.",
  a(PA, "Parser::parse_int", "Parser::parse_string", "Parser::parse_identifier", "Parser::parse_bool", "Parser::parse_float", "Parser::parse_many", "Parser::parse_n", "Parser::parse_list", "Parser::parse_list_of_n", "Parser::parse_one_or_list", "Parser::parse_point2f", "Parser::parse_vector2f"))
p("C93", "Spectra and parameters accept, reject and stop exactly as specified",
  "parse_spectrum and parse_param_list: in front of any tokens they succeed and stop at a place if and only if the grammar says so, and fail with an error and stop at a place if and only if the list of errors (with complete messages) says so; they do nothing else. A parameter read is filed last in the vector of its type, every other vector unchanged.",
  "every token list, every place in it, every parameter set", "All header strings and all values; the message of a failing parameter is seen by no caller.",
  a(PA, "Parser::parse_spectrum", "Parser::parse_param_list"))
p("C94", "The f32 and the f64 build differ in nothing but the floats",
  "For every text, the program built with one float type and the program built with another return the same pre-directives, directives, parameters, positions, strings, integers, errors and panics; only the floats in them may differ, and each float is computed from the same literals by the same products, powers of ten and integer conversions in both builds.",
  "every input text, every two float types", "All texts and both settings of the feature float_as_f64; the tests run one build.",
  a(PA, "Parser::parse", "Tokenizer::tokenize") + a(MO, "Float"))
p("C95", "Only the classes of the characters in the text matter",
  "If two tables of numeric and alphabetic characters agree on the characters that occur in the text, parsing gives the same result with both. In particular a text of ASCII characters is parsed the same with the tables of every version of Unicode.",
  "every input text, every two tables", "All texts and tables.",
  a(PA, "Tokenizer::tokenize_one", "Tokenizer::tokenize_num", "Tokenizer::tokenize_id"))
p("C96", "How much stack parsing takes, exactly",
  "For every text there is a depth k, at most the length plus 4, such that parsing on a stack of at least k nested calls ends like parsing without a limit, and on a smaller stack overflows. For a text that parses, k is the larger of: the largest number of comments, runs of white space and exponents that belong to one token or to the end of the text; and the height of the blocks.",
  "every input text and every stack depth", "All texts and depths; overflowing the stack ends the test run.",
  a(PA, "Tokenizer::tokenize_one", "Tokenizer::tokenize_num", "Parser::parse_directive", "Parser::parse_directives"))
p("C97", "Positions are only carried along",
  "Whatever function is applied to the positions of the tokens, parse gives the same result with that function applied to all positions in it: in the scene and in the message. On texts: below a first text that tokenizes, a second one is tokenized as it is alone, with all positions, also those in an error message, moved down by the lines of the first.",
  "every token list, every function on positions; every two texts", "All token lists and all position functions.",
  a(PA, "Parser::parse", "Tokenizer::tokenize", "Tokenizer::next", "Parser::pos"))
p("C98", "A header in front of a text",
  "If a text consists of pre-directives (which the program says when asked with an empty world block behind it) and a second text begins with an identifier or has no tokens, then the first in front of the second parses as the second alone does, with the pre-directives of the first in front of its own, and positions moved down; if the second is rejected, the whole is rejected with the same message. Without the condition on the second text this fails.",
  "every two texts", "All pairs of texts, also rejected ones.",
  a(PA, "Parser::parse", "Parser::parse_predirectives", "Parser::parse_predirective", "Parser::parse_param_lists"))
p("C99", "A piece of a world block in front of a text",
  "If a text without closing keywords is accepted as the content ds of a world block and a second text begins with an identifier or has no tokens, then WorldBegin, the first and the second text parse as WorldBegin and the second text do, with ds in front; the directives of the second go into the innermost block the first leaves open. If WorldBegin and the second text are rejected, so is the whole, with the same message.",
  "every two texts", "All pairs of texts, also rejected ones; all nestings.",
  a(PA, "Parser::parse", "Parser::parse_directives", "Parser::parse_directive"))
p("C100", "The place a syntax error names is that of the first wrong token",
  "Whenever a token list is rejected with a message that names a place, that is the place of a token such that everything before it begins some accepted input, also on the level of texts: the characters before the place can be completed to an accepted text. The token named is wrong whatever follows it, except if it is a number (a bracketed group that is too short is named by its first number) or the message counts the numbers after a keyword (then the keyword is named). Exactly those token lists begin accepted inputs that name no place, maybe after adding numbers.",
  "every rejected token list and text", "All rejected inputs, and for each the existence of a continuation, or that no continuation exists.",
  a(PA, "Parser::parse", "Parser::parse_predirectives", "Parser::parse_predirective", "Parser::parse_directives", "Parser::parse_directive", "Parser::parse_param_lists"))
p("C101", "A scene is no larger than its text",
  "Counting one for every directive, parameter and number or truth value, and one more than its length for every string: the scene read from a text counts at most as many as the text has characters.",
  "every accepted text", "All texts; nothing is stored twice, whatever the nesting and the number of parameters.",
  a(PA, "Parser::parse", "Parser::parse_predirectives", "Parser::parse_directives", "Parser::parse_param_lists"))
p("C102", "Matrix4::inverse in floats panics on singular matrices and on no others",
  "In f32 and f64 the panic of the inverse tells singular matrices from regular ones. (False: matrices with two equal rows, or with two equal columns, are inverted to finite numbers, a regular matrix panics, and a zero row together with a zero column is not noticed but gives NaN. True: if the result has no NaN then the matrix has none, and no row and no column of it is zero.)",
  "every matrix of f32 or f64 numbers, including NaN and infinities", "All matrices; the failing ones are rare and depend on single roundings in the elimination.",
  a(M, "Matrix4::inverse"))
p("C103", "lerp in floats stays between its end points",
  "For 0 <= t <= 1 in f32 or f64 the interpolated number lies between the two given ones, and grows with t. (False: interpolating between a number and itself can give a larger one, so that a point interpolated inside a box can be outside of it, and a larger t can give a smaller result. True: it stays between up to four rounding errors relative to the larger end point.)",
  "all finite t between 0 and 1, all finite end points, all boxes", "All floats; most triples show nothing.",
  a(MO, "lerp") + a(PT, "lerp") + a(B, "lerp"))
p("C104", "lerp in floats meets its end points, never overflows, and keeps order and sign",
  "In f32 and f64: at t = 0 and t = 1 the result is exactly the first and the second number; for t between, finite numbers give a finite result however large they are; larger end points never give a smaller result; negated end points give the negated result; end points of one sign give a result of that sign. Points and boxes are interpolated coordinate by coordinate.",
  "all finite t between 0 and 1, all finite end points", "All floats, including the largest ones and subnormal ones.",
  a(MO, "lerp") + a(PT, "lerp") + a(B, "lerp"))
p("C105", "scale_differentials in floats",
  "In f32 and f64 the four neighbouring quantities become main + s * (neighbour - main) coordinate by coordinate, up to three rounding errors, while the ray itself stays; s = 0 makes them equal to those of the ray unless the difference overflows; s = 1 leaves them unchanged where neighbour and ray are within a factor of two, and otherwise changes them by a few rounding errors relative to the larger of the two, which can turn 1 into 0.",
  "all ray differentials and factors of f32 or f64 numbers", "All floats; cancellation shows only for particular sizes.",
  a(R, "RayDifferential::scale_differentials"))
p("C106", "lerp by the offset of a point returns to the point in floats",
  "For a point of a finite box in f32 or f64, taking its offset and interpolating the box by it gives the point. (False: 1 in a box from 0 to 41, for f32, comes back smaller. True: it comes back up to fourteen half units in the last place of the larger corner coordinate.)",
  "all finite boxes without overflow of the extent, all points inside", "All boxes and points; the error bound needs the division and both multiplications together.",
  a(B, "Bounds3::offset", "lerp"))
p("C107", "NaN in boxes",
  "In f32 and f64 new, union_pt, union and intersect take, axis by axis, the smaller and the larger of two numbers, and the first one if either is NaN. So NaN in an added point or box does not count, NaN in the lower corner of the box itself stays in both corners, and the order of the arguments matters. inside and overlaps never answer yes if any coordinate is NaN.",
  "all f32 and f64 boxes and points, including NaN, infinities and both zeros", "All placements of NaN in twelve coordinates together with all orders of the other ones.",
  a(B, "Bounds3::new", "Bounds3::union_pt", "Bounds3::union", "Bounds3::intersect", "Bounds3::overlaps", "Bounds3::inside") + a(MO, "pmin", "pmax"))
p("C108", "A box grown point by point is the smallest around all points",
  "Starting with new_pt and adding points one by one gives the smallest box containing all of them, the same box in every order, and the same as the union of the boxes of two parts of the list; likewise for the union of many boxes. In f32 and f64 with NaN: an axis on which the first point has NaN is NaN, on the others the bounds are the least and the greatest of the numbers that are not NaN.",
  "all lists of points and of boxes, of any length, in i64, f32 and f64", "Lists of unbounded length and all their orders.",
  a(B, "Bounds3::new_pt", "Bounds3::union_pt", "Bounds3::union"))
p("C109", "Matrix4::inverse in floats is accurate for well-conditioned matrices",
  "In f32 and f64: if the entries of a matrix are at most S in size (S between 2^-60 and 2^60), those of its true inverse at most K, and S*K*u <= 1/8192 for the unit roundoff u, then inverse does not panic, the result is finite, differs from the true inverse by at most 1400*K*(S*K+1)*u in each entry, and times the matrix differs from the identity by at most 2800*S*K*u; so a panic on a regular matrix shows that it is badly conditioned, and a Transform made from such a matrix carries an accurate inverse. Being invertible alone does not suffice.",
  "all f32 and f64 matrices with finite entries and an inverse over the real numbers", "All matrices and all orders of pivots; the bound needs the whole elimination, with pivoting, for arbitrary entries.",
  a(M, "Matrix4::inverse") + a(T, "Transform::new"))
p("C110", "Places, numbers, names and other strings are only carried along",
  "If two token lists differ only in their places, numbers and strings, such that every two strings in corresponding places are both or neither \"true\", \"false\" or a parameter header of the same type, then both are accepted or both rejected, and the two scenes, or the two messages, differ only in the corresponding places, numbers, strings and names. So no number, no place, no name of a shape, material or file and no name of a parameter decides anything.",
  "every two token lists and texts that are alike", "All token lists and all ways to replace values, also different ones for the same value in different places.",
  a(PA, "Parser::parse", "Parser::parse_predirective", "Parser::parse_directive", "Parser::parse_param_list", "Parser::parse_spectrum", "Parser::parse_float"))
p("C111", "In floats the inverse of a well-conditioned matrix undoes it",
  "In f32 and f64, for a matrix with entries at most S whose true inverse has entries at most K: if S*K*u <= 1/65536, for the unit roundoff u, inverting twice gives the matrix back up to 80000*S*(S*K)*u in each entry; and if S*K*u <= 1/8192 and the last row begins with zeros, a vector with coordinates at most V sent through the Transform made from the matrix and then through its inverse comes back up to 8600*(S*K)*u*V + (18*K+4)*eta, eta being half the smallest positive float.",
  "all f32 and f64 matrices with finite entries and an inverse over the real numbers, all vectors", "All matrices, vectors and orders of pivots; the error of the second inversion depends on that of the first.",
  a(M, "Matrix4::inverse") + a(T, "Transform::new", "Transform::inverse") + a(V, "Vector3::transform"))
p("C112", "Matrix4::inverse in floats treats both signs alike",
  "In f32 and f64, changing the signs of some rows and columns of a matrix changes, in the inverse, the signs of the corresponding columns and rows and nothing else, except perhaps the signs of zeros; one inverse panics exactly when the other does. In particular the inverse of -A is the negative of the inverse of A, and matrices that are equal have equal inverses. It is required that the inverse has no NaN: with NaN it fails.",
  "all f32 and f64 matrices, all choices of signs", "All matrices and all 256 choices of signs; the symmetry has to survive every rounding and the search for pivots.",
  a(M, "Matrix4::inverse"))
p("C113", "Order survives rounding",
  "In f32 and f64, larger operands never give smaller results. Along a ray each coordinate only moves in the direction of the ray, so a ray that is in a box at two times is in it at every time between. Points in order have relative coordinates (Bounds3::offset) in order. A box that contains another still does so when expanded by at least as much, and has at least its diagonal. A vector with components at least as large in magnitude is at least as long. Dot products with a non-negative vector and images under a matrix with non-negative entries keep componentwise order. lerp between a negative and a positive number is monotone in its parameter, outside of [0,1] too.",
  "all f32 and f64 operands whose results are not NaN, finite ones where the theorem says so", "An inequality between two computations, each with its own roundings; a test can only hit operands it thought of, and violations would be one unit in the last place.",
  a(R, "Ray::at") + a(B, "Bounds3::inside", "Bounds3::offset", "Bounds3::expand", "Bounds3::diagonal") + a(V, "Vector3::len", "Vector3::dot", "Vector3::transform") + a(MO, "lerp"))
p("C114", "Mirrored scenes give mirrored results in floats",
  "In f32 and f64, turning some axes round before a computation or after it gives the same result, except perhaps for the signs of zeros: sums, differences, multiples and quotients of vectors and points, face_forward, floor and ceil, lerp of points, Ray::at, Bounds3::new, union, union_pt, intersect and expand of boxes without NaN, the centre of the bounding sphere, matrix products and sums, Vector3::transform, Transform::translate. Dot products, lengths, diagonals, volumes and surface areas keep their values, again up to the sign of zero; maximum_extent, overlaps, inside and has_scale do not change at all; cross products change hands. inside_exclusive, the radius of the bounding sphere and boxes with NaN are not symmetric.",
  "all f32 and f64 operands (infinities and NaN included, except where stated), all eight choices of mirrors", "A relation between two runs for all operands; every rounding has to commute with the mirror.",
  a(V, "Vector3::dot", "Vector3::cross", "Vector3::len", "Vector3::face_forward", "Vector3::transform") + a(PT, "Point3::lerp", "Point3::floor", "Point3::ceil") + a(R, "Ray::at") + a(B, "Bounds3::new", "Bounds3::union", "Bounds3::union_pt", "Bounds3::intersect", "Bounds3::expand", "Bounds3::overlaps", "Bounds3::inside", "Bounds3::diagonal", "Bounds3::volume", "Bounds3::surface_area", "Bounds3::maximum_extent", "Bounds3::bounding_sphere") + a(M, "Matrix4::mul", "Matrix4::add") + a(T, "Transform::translate", "Transform::has_scale"))
p("C115", "Blocks that do not mix are not mixed by the inverse in floats",
  "In f32 and f64, if the coordinates fall into groups and the matrix has only zeros where row and column belong to different groups, its inverse, if it has no NaN, has only zeros there too; the entry of a coordinate that is alone in its group is exactly the rounded reciprocal. A last row (0, 0, 0, w) becomes exactly (0, 0, 0, 1/w), again if the inverse has no NaN, when no entry of the matrix is larger than w in absolute value; with larger entries it does not: the inverse of a translation can have another last row.",
  "all f32 and f64 matrices, all partitions of the four coordinates", "Exact zeros have to survive all roundings and every order of pivots.",
  a(M, "Matrix4::inverse"))
p("C116", "A change of unit by a power of two changes nothing else in floats",
  "In f32 and f64, if all lengths of a scene are multiplied by the same power of two, results are multiplied by exactly that power: Bounds3::new, union, union_pt, intersect, the smallest and largest component, min and max of points (for all operands, NaN and infinities included), sums and differences of points and vectors, expand, diagonal (unless the larger result overflows), dot and cross products, lengths, surface area, volume, multiples, Ray::at, lerp, Vector3::transform, the centre of the bounding sphere (unless a product overflows in the larger scene or falls below the normal range in the smaller one). overlaps, inside, inside_exclusive, max_dimension, maximum_extent, relative coordinates (offset) and the second vector of coordinate_system do not change at all, nor does it whether face_forward turns a vector round (unless a product is too small or the dot product overflows).",
  "all f32 and f64 operands, all powers of two within the conditions stated", "A relation between two runs for all operands; every rounding has to commute with the scaling, down to subnormal numbers.",
  a(V, "Vector3::dot", "Vector3::cross", "Vector3::len", "Vector3::transform", "coordinate_system", "Vector3::max_dimension", "Vector3::face_forward") + a(PT, "Point3::lerp") + a(R, "Ray::at") + a(B, "Bounds3::new", "Bounds3::union", "Bounds3::union_pt", "Bounds3::intersect", "Bounds3::expand", "Bounds3::overlaps", "Bounds3::inside", "Bounds3::inside_exclusive", "Bounds3::diagonal", "Bounds3::volume", "Bounds3::surface_area", "Bounds3::maximum_extent", "Bounds3::offset", "Bounds3::bounding_sphere"))
p("C117", "Scenes of moderate size never overflow in floats",
  "In f32 and f64, if coordinates are finite and at most 2^k in magnitude, results are finite, not NaN, and at most a stated multiple of a power of two: sums, differences, expand and diagonal (k + 2 <= 128 in f32, 1024 in f64), dot and cross products (j + k + 2), lengths (2k + 2), surface areas (2k + 5), volumes (3k + 4), bounding spheres (2k + 4), multiples, Ray::at and scale_differentials by a factor up to 2^j (j + k + 2), products and sums of matrices and Vector3::transform (j + k + 3). In f32, with bounds one power of two larger, dot products, lengths, areas, volumes and matrix products do overflow.",
  "all f32 and f64 points, vectors, boxes, rays and matrices within the stated bounds", "All combinations of values up to 2^61; only extreme ones overflow.",
  a(V, "Vector3::dot", "Vector3::cross", "Vector3::len", "Vector3::len_sq", "Vector3::transform") + a(R, "Ray::at", "RayDifferential::scale_differentials") + a(M, "Matrix4::mul", "Matrix4::add") + a(B, "Bounds3::expand", "Bounds3::diagonal", "Bounds3::volume", "Bounds3::surface_area", "Bounds3::bounding_sphere"))
p("C118", "Where NaN comes from",
  "In f32 and f64: a coordinate of a sum, difference, multiple or quotient of points and vectors is NaN exactly if an operand is, or for infinity minus infinity, zero times infinity, 0/0 and infinity by infinity, and no other coordinate is affected. A length is NaN exactly if a component is NaN, and infinite if a component is. For finite operands a dot product, a cross product and a matrix product can be NaN, but only if a product overflows. A point of a finite ray, at a parameter that is not NaN, is NaN exactly if the parameter is infinite and the direction is zero on that axis. A relative coordinate in a finite box is NaN exactly if both the extent and the difference overflow. The box of everything has NaN for all relative coordinates and for the centre of its bounding sphere, whose radius is 0. Of a finite vector, both vectors that coordinate_system gives are finite, except if the squares it adds vanish, when both have NaN in them.",
  "all f32 and f64 operands, including NaN, infinities and zeros where not stated otherwise", "All combinations of special values and all finite values that can overflow.",
  a(V, "Vector3::dot", "Vector3::cross", "Vector3::len", "Vector3::add", "Vector3::sub", "Vector3::mul", "Vector3::div", "coordinate_system") + a(PT, "Point3::add", "Point3::sub", "Point3::mul", "Point3::div") + a(R, "Ray::at") + a(M, "Matrix4::mul") + a(B, "Bounds3::offset", "Bounds3::new_inf", "Bounds3::volume", "Bounds3::surface_area", "Bounds3::bounding_sphere"))
p("C119", "Order of parameters",
  "If, in any number of directives, neighbouring well-formed parameters of different types change places any number of times, the parser gives exactly the same scene; if the tokens are rejected (or end too early), so are the rearranged ones. For texts the same holds up to places. Within a type the order is kept and visible: two lists of parameters of a shape give the same scene exactly if the one comes from the other by such changes.",
  "all token lists and all texts, any number of directives and changes, any float type", "Infinitely many lists of parameters and contexts, of which a test would try a few.",
  a(PA, "Parser::parse", "Parser::parse_predirectives", "Parser::parse_directive", "Parser::parse_directives", "Parser::parse_param_lists", "Parser::parse_param_list", "ParamSet"))
p("C120", "Renaming the axes",
  "If the axes of the operands are renamed (permuted), so are those of the result, bit for bit and with the same panics: for the operations of points, vectors, normals, boxes, rays and ray differentials that treat the axes alike, the centre of the bounding sphere, matrix addition, transposition, translations, and the matrix of a scaling. The smallest and largest components keep their values, and a longest axis that is unique goes by its new name. Dot product, squared length, face_forward, volume, the radius of the sphere, transformed vectors, has_scale and matrix products (inner dimension) keep their values exactly if X and Y change places; the vector product follows cyclic renamings exactly and changes sign with an exchange. For i64 the sums keep their values under any renaming if no overflow check fails. Theorems marked refuted show that the conditions are needed.",
  "all permutations of the axes, all element types (i64 with and without overflow checks, f32, f64), all values including NaN and infinities", "Six permutations times all operands of all operations; a slip on one axis (a wrong field in a copied line) shows only where that axis matters.",
  a(PT, "Point3::min", "Point3::max", "Point3::lerp", "Point3::floor", "Point3::ceil") + a(V, "Vector3::dot", "Vector3::cross", "Vector3::max_dimension", "Vector3::transform") + a(B, "Bounds3::union", "Bounds3::intersect", "Bounds3::offset", "Bounds3::maximum_extent", "Bounds3::bounding_sphere") + a(M, "Matrix4::transpose") + a(T, "Transform::translate", "Transform::scale", "Transform::has_scale"))
p("C121", "A text cut short",
  "If a text is accepted and cut off anywhere, also inside a token, the piece is either not accepted or gives exactly the same scene, never a shorter or otherwise different one. In the second case the closer of the world block is in the piece, whole and at the same place among the tokens, and every longer piece that can be split into tokens gives the scene as well. The tokens of a piece are the first tokens of the text, except that the last one may be the beginning of an identifier or of a number. Theorems marked refuted show that the whole text has to be accepted, that a longer piece may be cut so that it is not a sequence of tokens, and that one may even panic.",
  "all texts and all places to cut them, all float tables, all character tables that classify ASCII properly, overflow checks on or off", "A file that was not written to the end must not pass for another scene; that is a claim on every place of every accepted text.",
  a(PA, "Parser::parse", "Tokenizer::tokenize"))
p("C122", "What a scene remembers of its text",
  "A text makes a list of statements up to its first closer: keywords with their places and what they are given (numbers, strings, a word, parameters with name, place and values). The scene is what the statements mean, a block containing all that follows it. Two accepted texts give the same scene exactly if they make the same statements at the same places with the same parameters in the same order. For bare token lists, whose places need not be in order, the order of parameters of different kinds is lost, and nothing else. Theorems marked refuted show what is not part of a statement and so is not remembered: brackets around a single value, the places of values, blanks in a parameter header, which closer is used, a malformed parameter at the end of a statement, and everything after the closer.",
  "all pairs of texts and of token lists, all float tables, all character tables that classify ASCII properly, overflow checks on or off", "That two different files never collapse into one scene, except in the listed ways, is a claim on all pairs of files.",
  a(PA, "Parser::parse", "Parser::parse_predirectives", "Parser::parse_directive", "Parser::parse_directives", "Parser::parse_param_lists"))
p("C123", "Integer geometry: exactly when overflow checks panic",
  "On i64, every operation of points, vectors, normals, boxes and matrices returns its exact result, in both builds, if the exact values of its listed intermediate steps fit into 64 bits; otherwise the build with overflow checks panics. So it panics exactly if a step does not fit, and where it returns, the build without checks returns the same. For an ordered box the steps of the area are the extents and the area alone. The offset of a point counts whole widths: inside the box it is 0, or 1 on an upper face. Division panics in both builds exactly for the divisor 0, and for -1 with a coordinate -2^63. Without checks all else has a result, except the offset, which panics exactly if an axis of the box is all of i64 and the point is at 0 there. Theorems marked refuted: the box of new_inf and the origin do so; without checks volume and area may be negative, the longest axis be misnamed, and an expanded box lose points.",
  "all integers, boxes, matrices; builds with and without overflow checks", "Which of the 2^64 values per coordinate overflow, and that no other input panics, cannot be enumerated.",
  a(B, "Bounds3::offset", "Bounds3::surface_area", "Bounds3::volume", "Bounds3::maximum_extent", "Bounds3::expand") + a(V, "Vector3::dot", "Vector3::cross", "Vector3::face_forward") + a(M, "Matrix4::mul"))
p("C124", "The laws of matrices in floats",
  "In f32 and f64, wherever the results are finite: (a b) c and a (b c) differ by at most 18 half units in the last place of the product with absolute values, a (b + c) and a b + a c, and (a + b) c and a c + b c, by at most 12 of theirs, plus a few of the smallest positive number for underflow. A vector taken through two transforms one after the other, and through the transform of their product, differ by at most 15 such half units, provided that the matrix applied first has zeros in its last row before the last column. Sums of matrices do not depend on the order, exactly. Theorems marked refuted: none of the others is exact, and the condition on the last row is needed.",
  "all matrices, vectors and transforms of floats, f32 and f64", "Error bounds over all matrices; tests see a few.",
  a(M, "Matrix4::mul", "Matrix4::add") + a(V, "Vector3::transform"))
p("C125", "When tokens, scenes and errors are equal",
  "The derived == of parsed scenes is true exactly when the two scenes stand for one scene: same directives in the same order with the same positions, names, strings, integers and booleans, floats of the same value (no NaN), and paths that differ only in doubled or final separators and in dots not at the beginning. It is symmetric and transitive. A parsed scene is equal to itself exactly when it holds no NaN, in particular when no literal is NaN. Tokens likewise. Two errors are equal exactly when they are displayed alike and both or none is the end of the file; that is an equivalence. Two results of parsing are equal exactly when both are scenes that are equal, or both are errors that are equal. Theorems marked refuted: a text gives a scene that is not equal to itself (0.0e400), and equal scenes need not be identical (a//b/ and a/./b, 0.0 and -0.0).",
  "all scenes, tokens and errors; f32 and f64; for self-equality all texts", "Nested trees of any size; the program's own tests compare scenes with == and rely on it.",
  a(PA, "Parser::parse", "Directive", "PreDirective", "ParamSet", "Token", "ParserError") + a(MO, "Spectrum"))
p("C126", "When points, vectors, normals, matrices and transforms are equal",
  "The derived == on points, vectors, normals and matrices of integers is identity. On floats it is true exactly when every coordinate stands for the same number (both zeros are one number, NaN is none); for transforms, every entry of both matrices. That relation is symmetric and transitive, and fails between a float and itself exactly for NaN. Inverting or transposing both of two transforms does not change whether they are equal. Theorem marked refuted: two transforms that both are the identity by is_identity need not be equal (scale by 1 and translate by 0).",
  "all values, f32, f64 and i64", "All bit patterns including NaN, infinities and both zeros.",
  a(PT, "Point2", "Point3") + a(V, "Vector2", "Vector3") + a(N, "Normal3") + a(M, "Matrix4") + a(T, "Transform"))
p("C127", "The sign of zero",
  "In f32 and f64: if the inputs of an operation are replaced by ones that differ at most in the signs of zeros (that is, are equal by == or NaN in the same places), the outcome does too, and answers, axes and panics are the same. This holds for every operation of points, vectors, normals, boxes, rays, matrices (also the inverse) and transforms, for lists in pmin and pmax, and for stepping an iterator; lengths are even identical. The exceptions are quotients by a scalar and scale, where the divisor must be identical or not zero. Theorems marked refuted: 1/0.0 and 1/-0.0 differ, in p / s and in scale.",
  "all values of f32 and f64, including infinities and NaN", "Tests compare with == and cannot see where the sign of a zero leaks into a result.",
  a(PT, "Point3") + a(V, "Vector3", "coordinate_system") + a(N, "Normal3") + a(B, "Bounds3", "Bounds3::offset") + a(R, "Ray::at") + a(M, "Matrix4::inverse") + a(T, "Transform"))
p("C128", "Whole numbers of moderate size are exact in floats",
  "In f32 and f64: if the inputs of an operation are whole numbers and every intermediate sum and product is at most 2^24 (f32) or 2^53 (f64) in absolute value, the operation returns exactly the whole-number result, and the same operation on i64 returns the same number in both build modes without overflow. This holds for sums, differences, multiples, dot and cross products, squared lengths, face_forward, abs and negation of points, vectors and normals; quotients of multiples of the divisor; lengths that are whole; diagonal, longest axis, area, volume and expand of boxes; products and sums of matrices; for Float alone also Ray::at, lerp and transforming a vector; floor and ceil return their argument. Operations that only compare (min, max, components, new, union, intersect, overlaps, inside) return the same as on integers for whole numbers of any size. The theorem marked refuted shows the bound is sharp: in f32, 2^24 + 1 is 2^24.",
  "all whole-number inputs in f32 and f64 whose intermediate results stay within 2^24 or 2^53; both build modes of i64", "Tests use small whole numbers and so cannot tell how far this holds.",
  a(PT, "Point3") + a(V, "Vector3") + a(N, "Normal3") + a(B, "Bounds3") + a(R, "Ray::at") + a(M, "Matrix4") + a(T, "Transform"))
p("C129", "Iterating over a two-dimensional box of floats",
  "Iterating over a Bounds2 of f32 or f64. If the corners are whole numbers of at most 2^24 or 2^53, the points are exactly those visited with i64. If the coordinates of the minimum are any numbers between -2^24 and 2^24 (f32) or -2^53 and 2^53 (f64), the iteration ends if and only if neither coordinate of the maximum is NaN or greater than 2^24 or 2^53. If the minimum is finite and a coordinate of the maximum is +infinity or NaN, it never ends. Each call of next returns. The theorem marked refuted: a box of f32 with finite corners, from (2^24, 0) to (2^24 + 2, 0), is iterated for ever.",
  "all boxes of f32 and f64 with such a minimum; the maximum is arbitrary", "A test of an iteration that does not end does not end.",
  a(B, "Bounds2Iter::next", "IntoIterator for Bounds2"))
p("C130", "A length in floats is never less than a coordinate",
  "In f32 and f64: if no coordinate of a vector or normal is NaN and some coordinate is at least 2^-63 (f32) or 2^-511 (f64) in absolute value, len returns a number (or infinity) that is at least the absolute value of every coordinate, in spite of rounding. If all other coordinates are zero and the remaining one is in that range and below 2^64 or 2^512, len is exactly its absolute value. For such finite vectors the first vector returned by coordinate_system has no coordinate beyond -1 or 1, even if squares overflow. Theorems marked refuted: the length of a tiny vector may be 0, that of a large one infinite.",
  "all such vectors and normals of f32 and f64", "Rounding could make a length too short for a few of 2^96 vectors only.",
  a(V, "Vector3", "coordinate_system") + a(N, "Normal3"))
p("C131", "What is not looked at does not matter",
  "If tokenizing a text ends, every text with the same number of characters (line ends normalised) that has the same characters at the places looked at gives the same tokens or the same error, after the same looks. If parsing a list of tokens ends, every list of the same length with the same tokens at the places looked at gives the same scene or the same error, after the same looks. The same holds of parsing a text from its characters to the scene. The places looked at have no gaps: everything before one of them is looked at too. A text without lexical error is looked at altogether. Theorem marked refuted: a longer text can agree at all places looked at and still give something else, because the end of the text is noticed without a look.",
  "all texts and token lists, all float operations and character tables, both build profiles", "Tests compare a few pairs of inputs; that no hidden look decides the outcome is a statement about all pairs.",
  a(PA, "Tokenizer::peek", "Tokenizer::next", "Tokenizer::tokenize", "Parser::peek", "Parser::next", "Parser::parse"))
p("C132", "An error message is at most proportional to the text",
  "If the standard library writes a character in {:?} with at most k characters and a float with at most w, the text of every error of parse has at most (k + 2) n + w + 140 characters for a text of n characters: messages are nested, and strings escaped, only boundedly often. No constant bound holds, because unknown names are shown in full.",
  "all texts, float operations and character tables, both build profiles", "Messages contain other messages and parts of the text; a test sees the length of a few of them.",
  a(PA, "Parser::parse", "ParserError", "Tokenizer::tokenize"))
p("C133", "Differences in floats have the right sign, and differences of near points are exact",
  "In floats a coordinate of a difference (of points, vectors, normals, of a point and a vector, of the corners of a box) that is not NaN is less than, equal to or greater than zero exactly as the first number is less than, equal to or greater than the second: no side of a box vanishes unless its corners agree there. If the two numbers are within a factor of two of each other, the difference is exact, the way from a point to another leads there, and the ray along it is there at 1. From far away it need not, and different points may be at distance zero.",
  "all points, vectors, normals and boxes of floats, f32 and f64", "A rounding that lost the last difference would show for neighbouring floats only, near the bottom of the range.",
  a(PT, "Point3") + a(V, "Vector3") + a(N, "Normal3") + a(B, "diagonal") + a(R, "Ray::at"))
p("C134", "The inequalities of Cauchy-Schwarz and of the triangle hold in floats up to rounding",
  "With finite results computed in floats, the dot product of two vectors is in absolute value at most the product of their lengths, the length of their sum at most the sum of their lengths, the length of their cross product at most the product of their lengths, and the distance of two points at most the sum of their distances to a third, each up to a relative error of at most 24 half units in the last place and lengths too small to be squared. The same holds for normals. Without the rounding errors it is false.",
  "all vectors, normals and points of floats with finite lengths, f32 and f64", "A test compares a few lengths; that no cancellation makes the error relatively large needs a proof.",
  a(V, "Vector3") + a(N, "Normal3") + a(PT, "Point3"))
p("C135", "The program prints the inverse of its matrix, and a printed matrix can be read back",
  "If a float is written in one line, the program pbrt prints 28 lines: a matrix, indented, with one number per line in the order of rows. The numbers are those of the inverse of the matrix in main up to 24 (f32) or 334 (f64) half units in the last place of 1. The text of a matrix determines the texts of its entries.",
  "every way of writing floats in one line; for the reading back all matrices", "The output of main is one text, but its layout is computed by nested padding and holds of all matrices.",
  a("src/bin/pbrt.rs", "main") + a(M, "Matrix4::inverse", "Matrix4"))
p("C136", "A float matrix times its computed inverse is near the identity on either side",
  "For a well-conditioned matrix of floats, the product of the computed inverse with the matrix and the product of the matrix with the computed inverse, both computed with the program's multiplication, are finite. Each entry of the first differs from the identity by at most 2840 S K half units in the last place, each entry of the second by at most 5640 S K (S K + 1), where S bounds the entries of the matrix and K those of its inverse over the reals. The same holds for the two matrices kept in a transform. They need not be the identity exactly.",
  "all matrices of finite floats whose entries are at most S, 2^-60 <= S <= 2^60, with S K at most 1/8192 of 1/u; f32 and f64", "A test multiplies a few matrices; it cannot bound the residual over all matrices and both orders.",
  a(M, "Matrix4::inverse") + a(T, "Transform::new"))
p("C137", "The length of a vector of integers",
  "For a vector or normal of i64: with overflow checks len panics exactly when the sum of the squares is 2^63 or more. Below that, in both build modes, len differs from the true length by at most two half units in the last place of it, relatively. A length that is a whole number of at most 2^24 (f32) or 2^53 (f64) is exact, even where its square is no float, and a longer vector is never found shorter. Without checks the sum is taken modulo 2^64, and len is NaN exactly when that is negative. The result need not be the float nearest to the true length.",
  "all vectors and normals of i64, both build modes, f32 and f64", "Overflow and double rounding occur for few of the 2^192 vectors; a test sees none of them.",
  a(V, "Vector3::len") + a(V, "Vector3::len_sq"))
p("C138", "Interpolating from the other end, and half-way",
  "In f32 and f64, lerp by 1 - t from b to a gives the same as lerp by t from a to b, for all finite a and b, exactly when t (between 0 and 1) is a multiple of 2^-24 (f32) or 2^-53 (f64); every t from 1/2 on is one, and points behave alike. Half-way, lerp gives the mean of the end points rounded once; it is finite however large they are and never outside them, unless an end point is so small that halving it is inexact; so the point half-way between two points of a box is in the box. The middle of a box by lerp then is the centre of its bounding sphere where the sum of the corners does not overflow; where it does, the centre is infinite and lerp is right.",
  "all finite end points and boxes, all t between 0 and 1, f32 and f64", "The multiples of 2^-24 are a small part of the floats below 1/2, and tests use round values of t, for which everything agrees.",
  a(MO, "lerp") + a(PT, "lerp") + a(B, "lerp") + a(B, "bounding_sphere"))
p("C139", "The algebra of boxes, and boxes that meet pairwise",
  "For boxes of i64, f32 or f64 without NaN: intersect is commutative and idempotent, and its result is described also for boxes that do not meet. Intersecting a with the union of a and b gives a. Where the boxes concerned overlap, intersect is associative, the union of a with the intersection of a and b is a, and union and intersect distribute over each other; without overlap associativity and this absorption fail. Finitely many boxes each two of which overlap have a point in common, and intersecting them one after the other gives exactly the set of the common points.",
  "all boxes and all lists of boxes of i64, f32 and f64", "The laws are about three boxes and about lists of any length; they fail only for particular gaps.",
  a(B, "Bounds3::union") + a(B, "Bounds3::intersect") + a(B, "Bounds3::overlaps"))
p("C140", "expand by a negative amount, and there and back",
  "expand with a negative amount makes the box smaller as long as its bounds do not cross; on an axis where they do, they are exchanged, so that taking away more than there is can make the box larger. For i64, where nothing overflows, the points of the result are exactly those between the moved bounds in either order, two steps that do not cross on the way are one step by the sum, and the opposite step gives back the box. In f32 and f64 the opposite step gives back each bound up to three half units in the last place relative to the size of the bounds and the amount; points can be lost.",
  "all boxes and amounts, i64 in both build modes, f32 and f64", "Only boxes with some side shorter than twice the amount are turned inside out; the loss of points needs bounds much smaller than the amount.",
  a(B, "Bounds3::expand"))
p("C141", "The laws of integer vectors whatever overflows",
  "Without overflow checks the laws of i64 vectors and points that only add, subtract and multiply hold exactly, whatever overflows on the way: sums are associative, adding and taking away again gives back the vector or point, scaling, dot and cross product are linear, the cross product changes sign when its arguments are exchanged and is at right angles to them, and Lagrange's identity holds. With overflow checks the two sides of each of these laws agree whenever neither panics. Laws that divide or compare hold with the checks only: dividing by the factor just multiplied with, a vector of length zero being zero, and face_forward returning a vector that points the same way.",
  "all i64 vectors, points and factors, in both build modes", "The laws are about pairs of computations that overflow at different places; the failing ones need values near the ends of the range.",
  a(V, "Add for Vector3") + a(V, "Vector3::dot") + a(V, "Vector3::cross") + a(V, "Vector3::face_forward") + a(PT, "Add<Vector3> for Point3"))
p("C142", "Moving the scene",
  "Moving points and boxes by an i64 vector moves every result of new, union, union_pt, intersect, corner, min and max with them, changes no answer of inside, inside_exclusive and overlaps, and changes neither differences of points nor diagonal, volume, surface_area, maximum_extent and offset, panics included, in both build modes. expand moves along as long as its bounds do not overflow. The iterator over a two-dimensional box does not: it begins each row at 0. In f32 and f64 a point inside a box stays inside and boxes that overlap still do, as long as nothing is NaN; differences, the exclusive test and points outside can change.",
  "all boxes, points and vectors, i64 in both build modes, f32 and f64", "The claim relates two runs on different inputs; the exceptions need values near the end of the range, a box away from the origin, or a move much larger than the scene.",
  a(B, "Bounds3") + a(B, "Iterator for Bounds2Iter") + a(PT, "Add<Vector3> for Point3"))
p("C143", "Enlarging the scene",
  "Multiplying the coordinates of all i64 points and boxes by a whole number k of at least 1 multiplies every result of new, union, union_pt, intersect, corner, min and max by k and changes no answer of inside, inside_exclusive and overlaps. With overflow checks, whenever the computation on the enlarged scene does not panic the one on the scene does not either, and differences, sums, diagonals and expanded boxes are k times, dot products, cross products and surface areas k^2 times, and volumes k^3 times as large; the longest axis stays, and so does the offset of a point on each axis on which the box has a width. Without the checks the longest axis can change.",
  "all i64 boxes, points and vectors and all k >= 1", "The claim relates two runs on different inputs, and which of them overflow.",
  a(B, "Bounds3") + a(V, "Vector3") + a(PT, "Mul for Point3"))
p("C144", "The mirror image of an integer scene",
  "Reversing any of the axes of a scene of i64 points and boxes, with the bounds of the boxes exchanged on those axes, mirrors every result of new, new_pt, union, union_pt and intersect, changes no answer of inside and overlaps, and changes none of diagonal, volume, surface_area, maximum_extent, dot and len_sq, panics included, in both build modes. expand is mirrored as long as its bounds do not overflow. inside_exclusive and max_dimension are not symmetric.",
  "all i64 boxes, points and vectors and all choices of axes, in both build modes", "The claim relates two runs on different inputs, and which of them overflow.",
  a(B, "Bounds3") + a(V, "Vector3"))
out = os.path.join(os.path.dirname(os.path.abspath(__file__)), "..", "properties.jsonl")
with open(out, "w") as f:
    for q in P: f.write(json.dumps(q, ensure_ascii=False) + "\n")
print(len(P))
