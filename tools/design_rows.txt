C01|quadkey loops over Z with masks; induction on zoom relating digits to bits
C02|same model; induction on the string
C03|Itoa and ParseInt(base 0) modelled on strings; print/parse inverse by induction on digits
C04|split/contains modelled; exact domain, refutation for negative columns, panic branch
C05|Ul/Bounds/Tile over R; atan/sinh inverse and monotonicity
C06|from C05
C07|from C05 plus midpoint of bounds
C08|R part from C05; binary64 part with Flocq rounding and a SpecFloat witness
C09|int32/uint32 bit operations on Z, all values
C10|uint32 arithmetic
C11|cursor state machine of writer, command interpreter of reader; induction on points
C12|same
C13|same; invariant on ring orientation, grouping
C14|sign lemma between the two area formulas plus reader grouping
C15|case analysis; refutation witnesses
C16|over R and rounding to Z
C17|over R
C18|writer state invariant: tables only grow, indexes stay valid
C19|byte-level: contract of the wire primitives, writer and reader as byte functions
C20|same with the eager reader's loop state
C21|fuel-indexed loop; for every fuel result NoFuel
C22|recover wrapper
C23|byte-level
C24|computation over both tag tables
C25|generic over number operations (no arithmetic law needed), so it covers binary64
C26|over R, induction on the polyline
C27|list induction
C28|model of the type dispatch in clip
C29|same
C30|fold over points with an abstract tile function
C31|heap model: features hold a reference to one shared map
C32|loop with abstract tile function
C33|over R, strong induction on range length
C34|generic over number operations
C35|over R, calculus-free convexity argument
C36|fold over call histories
C37|induction
C38|over an ordered field (R)
C39|over R; parity as an independent definition
C40|abstract tile function
C41|over R
C42|list lemma
C43|region invariant on the packer's tree
C44|same invariant
C45|same invariant plus area argument
C46|the one regexp modelled as a matcher, then inverse
C47|over R
C48|over R
C49|case analysis over optional zooms
C50|map model
C51|nested induction on documents
C52|string model
C53|over R with rounding
C54|over R with floor
C55|over R with floor, refutation of precision
C56|arrays as lists/functions
C57|direct
C58|direct
C59|loop invariant of the lower envelope of parabolas over R with an explicit large constant
C60|from C59 applied to columns then rows
C61|size and clamp
C62|list/multiset induction
C63|loop model with abstract glyph oracle
C64|database model: history induction
C65|statement trace semantics with crash points
C66|string/number abstraction over decimal text, row-order permutations
C67|computation over tables
C68|permutations of the signature table
C69|string model
C70|page chain model, induction
C71|greedy match modelled as last '>'
C72|struct shape model
C73|case analysis on the record
C74|induction on the command list with ring invariants
C75|crossing parity is invariant under cutting edges at the band; induction over the ring
C76|C75 at each child's bounds
C77|filter against the grouping map
C78|monotonicity of the projection; witness crossing a tile corner
C79|C75 per member polygon
C80|byte-level loop step with the skip as a parameter; witness tile
C81|byte-level run of the layer loop past its end
C82|one step of the value reader on symbolic bytes; witness -1
C83|fold over tag pairs
C84|from the byte-level tile loop of C19
C85|loop model over the bitmap, exact result as an equation
C86|over R; combined with C61
C87|fold over the option list
C88|Raster_Model, Raster_Props
C89|RasterF64_Model, RasterF64_Props (Flocq)
C90|Color_Props over R with acos and sextants of the hue circle
C91|Regex.v matcher with declarative matches, ColorStr_Props
C92|escape and split round trip, insertion sort on keys
C93|path.Clean on segments
C94|ClipFeature_Proofs: totality, convexity of the cuts, invariant on the map per level
C95|induction on levels over C76 membership, triangle witness
C96|Compose Feature with the counter; induction on the remaining features; the stuck feature by induction on the fuel.
C97|Pointwise relation between the geometries; the rounding function of the protobuf library is a parameter.
C98|Model with the codecs as parameters; case analysis; map lemmas for the key rows.
C99|Case analysis on the value and the document; the addressability rule of encoding/json is part of the model.
C100|encoding/json modelled as a decoder over type descriptions; struct and slice decoding characterised by member, first failing stop by position
C101|as C100; evaluation by induction over the stops before the nil one
C102|document-level relation proved functional and equal to the computed background
C103|positions as paths with document order; classification of the generic decoder by induction on the type
C104|field-by-field from the struct decoding lemma
C105|binary64 through Flocq: relative error of quotient and product, nearest-even tie at powers of two for thirds
C106|haversine identity, atan2 against acos, Gram determinant for the triangle inequality
C107|heap of maps; induction over the iteration order
C108|file system as a map, codec as parameter
C109|back_struct: encoder against typed decoder field by field; reads_* lemmas give the kind predicate; composition with C66
C110|back_struct and reads_* over the struct table; field_value_flat for the values
C111|unfold the request, Client_Props path lemmas, unknown_members for message bodies
C112|reads_* for the document; induction over fonts and languages, composed with C62
C113|Db_Model, Db_Props: sessions as folds over the files of Mbtiles_Model and Meta_Model; instances of C64, C65, C66, C68
C114|Compose C11/C13/C15 with C16/C17 and C19/C20; spec gives grid by the Mercator formulas.
C115|Slices as array, offset, length, capacity over a list of arrays; append in place or to a new array; frame lemma by induction on the rings.
C116|ColorF64_Model on Flocq binary64; C116_range, C116_legal, C116_channels, C116_back, C116_two_equal, C116_round_trip_refuted
C117|Rocq: SdfF64_Model, stack invariant with rounding margins in SdfF64_Proofs
C118|Model every operation in binary64 with the elementary functions as a parameter; exact dyadic arithmetic for longitudes; Lipschitz bounds of the Gudermannian for the latitudes; lower bound on the distance of the middle latitude from the edges.
C119|Run Filter over a list with the configuration as state; relate TileMap to the cells of the earlier features; count cells by zooming out eight times.
C120|Model every operation in binary64; bound the error of each step, using that the derivative of the Mercator projection is at most 12 on the map, and show that the rounded quotient is nearer to the grid point than one half.
C121|The clip model instantiated with binary64; comparisons only involve input values, so control flow agrees with the exact run; relative error of differences (even subnormal) and monotone rounding bound the interpolation.
C122|Forward error analysis of GetSqSegDist with Flocq (relative error of differences and products, Lipschitz clipping of the foot parameter), then an induction over the recursion generic in the number type that tracks kept and dropped vertices.
C123|Decode64: float64 decoder equals the integer decoder of C01 while sums stay below 2^53; witness for the rest
C124|Pip64: comparisons are exact, the computed crossing is within 2^(k-49); edges agree one by one
C125|Style64: model the float operations with pow a parameter; range by monotonicity of rounding, error bound by relative errors
C126|Style64: exact byte differences, floor of a rounded product, so at most one step off
C127|Names: separator uniqueness, digits followed by a full stop do not parse
C128|Names: through C46
C129|Parity: a point outside the swept triangles keeps its crossing parity when a vertex moves; Clip64 bounds how far vertices move; edges of a clipped ring lie on the outline or along the band
C130|MvtOrder: the end is early by the length of a length, at most four bytes; no written last field is that short; witnesses for the rest
C131|Model the argument of every make call in the decoding loop next to the points; induction over the written commands, and over arbitrary lists with the observation that only the last count can exceed what follows it.
C132|Compose C120 (regrid), C123 (float decoder = integer decoder) and the integer round trip; idempotence of merging, closing and orienting.
C133|Terra64_Model, Terra64_Props (Flocq; all steps but the first sum are exact, so C55 applies to the rounded sum)
C134|ClipTile64_Model, ClipTile64_Proofs, ClipTile64_Props, ClipSquare64_Props (Flocq; passes of C129, with bounds from C118)
C135|ClipFeature64_Model, ClipFeature64_Proofs, ClipFeature64_Props (Flocq; the steps of C134 along the ancestors of a tile, losing 46e-8 of the distance to the outline per zoom)
C136|Error analysis of the cursor for arbitrary positions (grid_near) on top of C120, the geometry decoder of C123 and the layer theorems of C19; a non-vacuous polygon with a hole
C137|Line64: error of the interpolation by quotient perturbation, separation of the ends from the crossed edges through the tile error bounds, heights of rows from the derivative of the projection
C138|Poly64: the even-odd rule is constant along a vertical move that meets no edge, which carries Pip from the computed corner to the exact one; the box is computed without rounding; rows through the projection error
C139|Distance64 rounds every operation; Sphere64_Props bounds the error of the square of half the chord, of the roots and of the arc tangent of their quotient, and certifies three roundings by Taylor polynomials for the witness.
C140|Points64_Model reuses the grouping of Clip_Model over Tile64; the relative row and column are scaled by a power of two, which is exact, so the floors at neighbouring zooms agree.
C141|copy the structure of C119 over binary64; relative error per addition for the mean, margins for the shares, eight steps of tile_above for the cells
C142|union by induction over the parts, then C137 and C138 for each part
C143|On top of C121 (one cut in binary64): count the pieces of a cut of a segment or of a one-way line in the exact run; compose two cuts with the edges of C118; then induct over the levels as in C135, with the level-by-level lemmas made generic in the kind of geometry.
C144|Theorems C144_total, C144_keep, C144_small, C144_small_holds, C144_point_refuted
C145|The loops of both readers over the bytes of written layers are followed with the layer invariants of C19; both sides decode the same commands, so that C136's per-geometry result carries over
C146|Compose C143 (parts of lines), C136 (grid points next to positions) and C145 (ReadTile); positions near a tile are near its grid by the Lipschitz bounds of the projection; removing repeated grid points does not change a line
C147|Compose C140 (groups), the tile of a position (C135), C136 (grid points next to positions) and C145 (ReadTile)
C148|From C136 and C145: moving each vertex by at most a unit moves no edge across a point that is clear of the outline; squeezing, closing and reversing a ring keep the parity of crossings
C149|Compose C134 with C148; the vertices of a cut ring are in the band on one axis and within the range of the ring on the other (C121, C25)
C150|Induction over the levels: rings stay within the child (as in C149) and latitudes grow by at most 2e-7 a level, also when a square is taken for the tile (C134); then C135 and C148
C151|The change of the surveyor's formula along one edge is a difference of two vertex terms, which cancel around a ring, and two products with the rounding; induction over the edges; then C148
C152|Induction over the polygons: the reader starts a polygon at rings of positive area only, or at the first ring
C153|Rings decoded as in C13, grouping shown to be the unique cut before positive rings; count holes with area.
C154|Every line read uses up two numbers more than twice its points, and the leading command is never the 9 the reader looks for.
C155|Redo the encoding lemmas of C13 without the area bound, keeping only that each ring is emitted in one of its two directions; grouping from C153.
C156|The encoding of wrapped steps is that of the moved points (lemmas of C11 for unbounded points), and the moved points are unique.
C157|Specification encoder written from section 4.3 without the writers; induction over the loop of LoadGeometry; grouping and its uniqueness from C153; length bound from C154. The examples of the specification are checked literally.
C158|The step lists of C10-C13 are the specification's moves of the points that differ from their predecessor; encodings are unambiguous because the reader's loop returns the rings encoded.
C159|Corollary of C157 and of the agreement of the float64 reader with exact arithmetic (C123); the numbers of the encoding are shown to be 32 bit words. The refutation is computed with Flocq's binary64.
C160|Encodings from C158; areas of the written rings from C152 and C153; unambiguity of encodings from C158.
C161|Composition of C157, C152 and C158; the winding step leaves rings alone that already have the right sign; unambiguity of encodings from C158.
C162|The feature loop lemma of C19 for arbitrary geometry numbers, then C157; nothing about how the tables of the layer were made is used.
C163|Induction on the fields, one step lemma per field kind; the geometry step also away from the end of the message.
