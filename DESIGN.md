# Design

Target: flywave/go-mapbox in /repo, read as text, never built or run.
Prover: Coq 8.16.1, logical name `Verif`, files in `rocq/theories`.

## 1. Layout

Each area has up to four files.

| suffix | contents |
|---|---|
| `X_Model.v` | Gallina transcription of the Go code, function by function; each definition cites file and lines and names its simplifications |
| `X_Spec.v` | independent specification: what the caller may rely on, written without the model's helpers |
| `X_Proofs.v` | lemmas |
| `X_Props.v` | the property theorems (`Theorem C..`), each closed by `exact`, followed by `Print Assumptions` and a non-vacuity `Example` |

Shared files:

| file | contents |
|---|---|
| `GoBase.v`, `GoStr.v`, `GoArr.v` | result type, integer wrapping, list utilities; strings and number syntax; slices that share memory |
| `Num.v` | the record of number operations that the geometry code is written over, with its instances in R and binary64 |
| `F64.v`, `TileF64_Model.v`, `TileF64_Proofs.v` | binary64 through Flocq: operations, values, rounding errors |
| `Json.v`, `Regex.v` | JSON document trees with Go's decoding rules; the matching semantics of the patterns used |
| `Bits_Props.v` | bit tricks |

Areas, by package:

| package | files |
|---|---|
| tileid | `Tileid`, `TileR` (real arithmetic), `Tile64` (binary64), `Names` |
| tile_cover | `Cover`, `Pip64`, `Line64`, `Poly64`, `Cover64`, `Sphere`, `Sphere64` |
| mvt: encoding | `Pbf`, `MvtGeom`, `MvtLayer`, `MvtLayerRead`, `MvtTile`, `MvtFlat`, `MvtInt`, `MvtPoints`, `MvtBig`, `MvtLine32`, `MvtStandard`, `MvtStandard64`, `MvtWritten`, `MvtIntWritten`, `MvtForeignAgain`, `MvtStandardBytes`, `MvtFieldOrder`, `MvtForeign`, `MvtDecode`, `MvtIter`, `MvtOrder`, `MvtAlloc`, `MvtProj`, `MvtProj64`, `MvtGeo`, `MvtRead64`, `TileLine64`, `TilePoint64`, `TilePoly64`, `TileCut64`, `TileFeature64`, `TileArea64`, `Decode64`, `MvtAgain`, `MvtAgain64`, `MvtGeo64` |
| mvt: geometry | `Clip`, `ClipRing`, `ClipFeature`, `ClipPoints`, `Points64`, `Clip64`, `Parity`, `ClipPoly64`, `ClipTile64`, `ClipSquare64`, `ClipFeature64`, `ClipLine64`, `ClipKeep64`, `Simplify`, `Simplify64`, `Reduce`, `Reduce64`, `Scale`, `Features`, `Trim` |
| mbtiles, tilejson, client | `Mbtiles`, `Meta`, `Db`, `Grid`, `Tilejson`, `Client`, `Docs` |
| style, colorextra | `Style`, `StyleJson`, `Style64`, `Color`, `ColorStr`, `ColorF64` |
| sprite, font, raster | `Sprite`, `StyleFile`, `Font`, `Sdf`, `SdfF64`, `Raster`, `RasterF64`, `Terra64` |

`ClipDown` in `ClipFeature_Model.v` models ClipDownTile including its shortcuts for features that lie
inside one child.  `tools/` holds the generators of the property list, this table and the manifest, and
the mutation runners `mutate.py` (hand-written wrong programs) and `sweep.py` (generated ones); their
results are in `seeded/LOG.jsonl`.

## 2. Modelling decisions

* Result type `Ok v | Panic | NoFuel`.  Go panics are values.  Loops without an
  obvious bound take fuel and return `NoFuel`, a separate result; theorems either give a
  fuel bound or (non-termination) hold for every fuel.  Go `error` returns are ordinary data.
* Integers are `Z` with explicit `wrap32/wrap64/u32/u64` where Go wraps.  Platform: 64-bit `int`.
* Go maps are association lists.  Iteration order is a parameter: theorems quantify
  over every permutation.
* Byte strings are `list Z` (bytes 0..255); text is Coq `string` (bytes).
* float64 geometry is modelled over `R` (exact arithmetic) unless the statement says
  binary64.  Where it matters the same algorithm is written generically over a record of
  operations and instantiated with R and with IEEE binary64 (`SpecFloat`/Flocq).
* `recover` is modelled by mapping `Panic` to the values Go returns in that case.
* Random/hash/unstable behaviour (`sort.Slice`, map order) is a quantified permutation.

## 3. Trusted base

* The Coq kernel (`coqchk` is run at the end as a cross check) and the standard library,
  including the Reals axioms `ClassicalDedekindReals.sig_not_dec`,
  `ClassicalDedekindReals.sig_forall_dec` and `functional_extensionality_dep`
  (Reals files only; also `Classical_Prop.classic` where Reals lemmas or Flocq need it).
  The section "Assumptions per theorem" at the end lists what `Print Assumptions` reports.
* The hand transcription from Go to Gallina.  Nothing connects the model to the compiled
  code except the reader's comparison of the cited lines, plus sanity `Example`s taken from
  the repository's own test fixtures (byte arrays in `mvt/read_write_test.go`,
  `mvt/write_geometry_test.go`).
* Dependencies that are not in /repo are modelled by a contract:
  * `github.com/flywave/go-pbf`: protobuf wire primitives.  `ReadTag` at the end of the
    buffer returns a tag that matches no field and does not advance; `ReadVarint` is LEB128 mod
    2^64 as `int`; `ReadString`, `ReadPackedUInt32`, `ReadBool`, `ReadFloat`, `ReadDouble`
    standard; out-of-range slice reads panic.  Writer operations append the standard encodings.
    `WriteString` emits the field even for an empty string; `EncodeVarint_Value` and `FloatVal32/64`
    emit untagged bytes.  `buf[a:b]` is checked against `len(buf)` (Go checks the capacity; the two agree
    for a buffer that is not a prefix of a larger allocation).  `endpos := buf.Pos + buf.ReadVarint()` leaves
    the operand order to the compiler; the model takes gc's order (position read after the call), and C130 says
    when the other order gives the same result.
  * Go standard library: `strconv`, `strings`, `regexp` on the single pattern used, `math`
    (exact), `sort.Slice` (some permutation sorted by the predicate), `database/sql` + SQLite
    (a table with a unique index, statements outside a transaction commit at once, a
    transaction commits atomically), `encoding/json` (document tree).
* Binary64 statements: IEEE-754 double arithmetic with round-to-nearest-even as defined by Flocq, no
  fused multiply-add and no excess precision (what gc emits on amd64).  Functions of Go's `math` package that
  are not correctly rounded (`Sin`, `Cos`, `Atan`, `Sinh`, `Log`, `Tan`, `Pow`, ...) are parameters; the theorems state the accuracy
  they need of them.
* No OCaml plugin beyond those of the standard distribution (lia, lra, nra, ring, field, zify).

## 4. What is not modelled

Image decoding/encoding, TrueType parsing and rasterising, HTTP transport, protobuf code generated
from `glyph.proto`, the SQL engine itself, upload/S3 plumbing, pretty printing, CLI tools, and every data
type definition that carries no behaviour.

## 5. Per property

| id | property | model and proof |
|---|---|---|
| C01 | Quadkey round trip, exact domain | quadkey loops over Z with masks; induction on zoom relating digits to bits |
| C02 | Quadkeys: decode/encode and prefix structure | same model; induction on the string |
| C03 | Tile strings round trip | Itoa and ParseInt(base 0) modelled on strings; print/parse inverse by induction on digits |
| C04 | File-name tile strings round trip, exact domain | split/contains modelled; exact domain, refutation for negative columns, panic branch |
| C05 | Point location: Tile and Bounds agree | Ul/Bounds/Tile over R; atan/sinh inverse and monotonicity |
| C06 | Children partition the parent's area | from C05 |
| C07 | Parent inverts Children | from C05 plus midpoint of bounds |
| C08 | Tile indices stay on the map | R part from C05; binary64 part with Flocq rounding and a SpecFloat witness |
| C09 | Zig-zag parameters round trip | int32/uint32 bit operations on Z, all values |
| C10 | Command integers | uint32 arithmetic |
| C11 | LineString geometry round trip | cursor state machine of writer, command interpreter of reader; induction on points |
| C12 | MultiLineString geometry round trip | same |
| C13 | Polygon and MultiPolygon round trip through AddFeature's geometry path | same; invariant on ring orientation, grouping |
| C14 | Integer polygon API uses the opposite winding | sign lemma between the two area formulas plus reader grouping |
| C15 | Point geometry round trip, exact domain | case analysis; refutation witnesses |
| C16 | Written coordinates are clamped to the tile | over R and rounding to Z |
| C17 | Projection and unprojection are inverse up to half a grid unit | over R |
| C18 | Property dictionary is consistent | writer state invariant: tables only grow, indexes stay valid |
| C19 | Whole-layer round trip through the lazy reader | byte-level: contract of the wire primitives, writer and reader as byte functions |
| C20 | Whole-tile round trip through ReadTile, and its id leak | same with the eager reader's loop state |
| C21 | Tile parsing does not always terminate | fuel-indexed loop; for every fuel result NoFuel |
| C22 | Tile errors: panics become errors, except in ReadRawTile and ToGeoJSON | recover wrapper |
| C23 | Render re-emits the layers it parsed | byte-level |
| C24 | Wire tags of both dialects are unambiguous | computation over both tag tables |
| C25 | Clipped geometry stays inside the band | generic over number operations (no arithmetic law needed), so it covers binary64 |
| C26 | Line clipping keeps exactly the part inside the band | over R, induction on the polyline |
| C27 | Ring repair | list induction |
| C28 | Clipping to a tile loses multi-part lines | model of the type dispatch in clip |
| C29 | ClipTile on polygons outside the tile | same |
| C30 | MultiPoint splitting by zoom is a partition | fold over points with an abstract tile function |
| C31 | Split features share one property map | heap model: features hold a reference to one shared map |
| C32 | First covering zoom | loop with abstract tile function |
| C33 | Simplification respects the tolerance | over R, strong induction on range length |
| C34 | Simplification only writes importance flags | generic over number operations |
| C35 | Point-segment distance is the true minimum | over R, calculus-free convexity argument |
| C36 | Feature reduction admits one point per cell | fold over call histories |
| C37 | Index ranges | induction |
| C38 | Bounding box of a closed ring | over an ordered field (R) |
| C39 | Point-in-polygon is ray-crossing parity | over R; parity as an independent definition |
| C40 | Line cover lists each visited vertex tile once | abstract tile function |
| C41 | Polygon cover | over R |
| C42 | Multi-geometry cover is the duplicate-free union | list lemma |
| C43 | Packed sprites never overlap | region invariant on the packer's tree |
| C44 | Packing stays inside the sheet | same invariant |
| C45 | Packing never fails on area-sorted input | same invariant plus area argument |
| C46 | Style file names round trip | the one regexp modelled as a matcher, then inverse |
| C47 | Numeric zoom functions | over R |
| C48 | Colour zoom functions | over R |
| C49 | Layer validation | case analysis over optional zooms |
| C50 | Style sets | map model |
| C51 | Filter parsing | nested induction on documents |
| C52 | Hex colours | string model |
| C53 | HSL colours produce legal channels | over R with rounding |
| C54 | Mapbox elevation encoding | over R with floor |
| C55 | Terrarium elevation encoding loses the fraction | over R with floor, refutation of precision |
| C56 | DEM tiles replicate their border | arrays as lists/functions |
| C57 | Border backfill does nothing for equal-sized neighbours | direct |
| C58 | Bulk elevation read-out | direct |
| C59 | 1-D distance transform is exact | loop invariant of the lower envelope of parabolas over R with an explicit large constant |
| C60 | 2-D distance transform is exact | from C59 applied to columns then rows |
| C61 | SDF bitmaps have the right size and range | size and clamp |
| C62 | Language coverage counts | list/multiset induction |
| C63 | Glyph ranges | loop model with abstract glyph oracle |
| C64 | Tile store behaves as a map | database model: history induction |
| C65 | Metadata update is not crash-atomic | statement trace semantics with crash points |
| C66 | Metadata round trip | string/number abstraction over decimal text, row-order permutations |
| C67 | Format names | computation over tables |
| C68 | Format detection is order independent | permutations of the signature table |
| C69 | Comma-separated numbers | string model |
| C70 | Paged listings are complete and ordered | page chain model, induction |
| C71 | Next-page link extraction | greedy match modelled as last '>' |
| C72 | Struct field schemas | struct shape model |
| C73 | Tile equality | case analysis on the record |
| C74 | Geometry decoding of arbitrary commands is total and well formed | induction on the command list with ring invariants |
| C75 | Polygon clipping preserves the interior | crossing parity is invariant under cutting edges at the band; induction over the ring |
| C76 | Clipping down one zoom | C75 at each child's bounds |
| C77 | The two point-splitting entry points agree | filter against the grouping map |
| C78 | How far the line cover is complete | monotonicity of the projection; witness crossing a tile corner |
| C79 | Multipolygon clipping preserves the interior | C75 per member polygon |
| C80 | ReadRawTile skips a byte after the geometry | byte-level loop step with the skip as a parameter; witness tile |
| C81 | A layer ending with its name swallows the next layer as a key | byte-level run of the layer loop past its end |
| C82 | Values of other producers are misread | one step of the value reader on symbolic bytes; witness -1 |
| C83 | Property tags resolve by last assignment | fold over tag pairs |
| C84 | The last layer of a name wins | from the byte-level tile loop of C19 |
| C85 | Drawing assumes a margin of three | loop model over the bitmap, exact result as an equation |
| C86 | The smoothing ramp starts at its second edge | over R; combined with C61 |
| C87 | Glyph builder options | fold over the option list |
| C88 | Elevation pictures | Raster_Model, Raster_Props |
| C89 | Elevation packing in binary64 | RasterF64_Model, RasterF64_Props (Flocq) |
| C90 | Colour space conversion | Color_Props over R with acos and sextants of the hue circle |
| C91 | Colour strings | Regex.v matcher with declarative matches, ColorStr_Props |
| C92 | Authenticated query strings | escape and split round trip, insertion sort on keys |
| C93 | Request paths | path.Clean on segments |
| C94 | Clipping down to a zoom fills the right tiles | ClipFeature_Proofs: totality, convexity of the cuts, invariant on the map per level |
| C95 | Clipping down to a zoom keeps membership | induction on levels over C76 membership, triangle witness |
| C96 | Walking a layer visits every feature once | Compose Feature with the counter; induction on the remaining features; the stuck feature by induction on the fuel. |
| C97 | Geometries at a smaller scale | Pointwise relation between the geometries; the rounding function of the protobuf library is a parameter. |
| C98 | UTF grids: opening and reading | Model with the codecs as parameters; case analysis; map lemmas for the key rows. |
| C99 | Layer types as JSON | Case analysis on the value and the document; the addressability rule of encoding/json is part of the model. |
| C100 | Numbers and zoom functions in styles | encoding/json modelled as a decoder over type descriptions; struct and slice decoding characterised by member, first failing stop by position |
| C101 | Colours and colour functions in styles | as C100; evaluation by induction over the stops before the nil one |
| C102 | Background of a parsed style | document-level relation proved functional and equal to the computed background |
| C103 | When parsing a style fails | positions as paths with document order; classification of the generic decoder by induction on the type |
| C104 | What a parsed style holds | field-by-field from the struct decoding lemma |
| C105 | Texture sizes at another pixel ratio | binary64 through Flocq: relative error of quotient and product, nearest-even tie at powers of two for thirds |
| C106 | Great-circle distance | haversine identity, atan2 against acos, Gram determinant for the triangle inequality |
| C107 | Features made from clipped tiles carry their tile and copies of the properties | heap of maps; induction over the iteration order |
| C108 | Feature files read back what was written, or panic | file system as a map, codec as parameter |
| C109 | Layer data survive their JSON document | back_struct: encoder against typed decoder field by field; reads_* lemmas give the kind predicate; composition with C66 |
| C110 | TileJSON documents survive encoding, and foreign ones are read exactly when well kinded | back_struct and reads_* over the struct table; field_value_flat for the values |
| C111 | GetTileJSON and GetStyle decide by the body alone | unfold the request, Client_Props path lemmas, unknown_members for message bodies |
| C112 | Language files and font coverage | reads_* for the document; induction over fonts and languages, composed with C62 |
| C113 | Life of a tileset file | Db_Model, Db_Props: sessions as folds over the files of Mbtiles_Model and Meta_Model; instances of C64, C65, C66, C68 |
| C114 | Geographic round trip of layers | Compose C11/C13/C15 with C16/C17 and C19/C20; spec gives grid by the Mercator formulas. |
| C115 | Closing rings works in the memory of the caller | Slices as array, offset, length, capacity over a list of arrays; append in place or to a new array; frame lemma by induction on the rings. |
| C116 | HSL and HSV colours in the arithmetic the code uses | ColorF64_Model on Flocq binary64; C116_range, C116_legal, C116_channels, C116_back, C116_two_equal, C116_round_trip_refuted |
| C117 | Signed distance fields in binary64 | Rocq: SdfF64_Model, stack invariant with rounding margins in SdfF64_Proofs |
| C118 | Tiles in floating point | Model every operation in binary64 with the elementary functions as a parameter; exact dyadic arithmetic for longitudes; Lipschitz bounds of the Gudermannian for the latitudes; lower bound on the distance of the middle latitude from the edges. |
| C119 | Thinning a tile keeps one point per cell and only visible shapes | Run Filter over a list with the configuration as state; relate TileMap to the cells of the earlier features; count cells by zooming out eight times. |
| C120 | Grid points survive longitude/latitude in floating point | Model every operation in binary64; bound the error of each step, using that the derivative of the Mercator projection is at most 12 on the map, and show that the rounded quotient is nearer to the grid point than one half. |
| C121 | Clipping lines in floating point | The clip model instantiated with binary64; comparisons only involve input values, so control flow agrees with the exact run; relative error of differences (even subnormal) and monotone rounding bound the interpolation. |
| C122 | Line simplification keeps its promise in binary64 arithmetic | Forward error analysis of GetSqSegDist with Flocq (relative error of differences and products, Lipschitz clipping of the foot parameter), then an induction over the recursion generic in the number type that tracks kept and dropped vertices. |
| C123 | Geometry decoding and ring orientation are exact in binary64 arithmetic | Decode64: float64 decoder equals the integer decoder of C01 while sums stay below 2^53; witness for the rest |
| C124 | Point in polygon in binary64 arithmetic | Pip64: comparisons are exact, the computed crossing is within 2^(k-49); edges agree one by one |
| C125 | Numeric zoom functions in binary64 arithmetic | Style64: model the float operations with pow a parameter; range by monotonicity of rounding, error bound by relative errors |
| C126 | Colour zoom functions in binary64 arithmetic | Style64: exact byte differences, floor of a rounded product, so at most one step off |
| C127 | Dotted tile names and geohash names | Names: separator uniqueness, digits followed by a full stop do not parse |
| C128 | Style file names as text | Names: through C46 |
| C129 | Clipping polygons in floating point | Parity: a point outside the swept triangles keeps its crossing parity when a vertex moves; Clip64 bounds how far vertices move; edges of a clipped ring lie on the outline or along the band |
| C130 | Feature ends and the order of evaluation | MvtOrder: the end is early by the length of a length, at most four bytes; no written last field is that short; witnesses for the rest |
| C131 | The geometry decoder requests room for exactly the points it returns for written geometries, but a four-number list can request 2^29 slots | Model the argument of every make call in the decoding loop next to the points; induction over the written commands, and over arbitrary lists with the observation that only the last count can exceed what follows it. |
| C132 | Writing a geometry that was read gives the same commands, in float64 | Compose C120 (regrid), C123 (float decoder = integer decoder) and the integer round trip; idempotence of merging, closing and orienting. |
| C133 | Terrarium elevations in binary64 | Terra64_Model, Terra64_Props (Flocq; all steps but the first sum are exact, so C55 applies to the rounded sum) |
| C134 | Clipping polygons to tiles in floating point | ClipTile64_Model, ClipTile64_Proofs, ClipTile64_Props, ClipSquare64_Props (Flocq; passes of C129, with bounds from C118) |
| C135 | Clipping a polygon down to a zoom in floating point | ClipFeature64_Model, ClipFeature64_Proofs, ClipFeature64_Props (Flocq; the steps of C134 along the ancestors of a tile, losing 46e-8 of the distance to the outline per zoom) |
| C136 | Layers round trip through longitude and latitude in float64 | Error analysis of the cursor for arbitrary positions (grid_near) on top of C120, the geometry decoder of C123 and the layer theorems of C19; a non-vacuous polygon with a hole |
| C137 | The cover of a line in binary64 | Line64: error of the interpolation by quotient perturbation, separation of the ends from the crossed edges through the tile error bounds, heights of rows from the derivative of the projection |
| C138 | The cover of a polygon in binary64 | Poly64: the even-odd rule is constant along a vertical move that meets no edge, which carries Pip from the computed corner to the exact one; the box is computed without rounding; rows through the projection error |
| C139 | Great-circle distances in float64 | Distance64 rounds every operation; Sphere64_Props bounds the error of the square of half the chord, of the roots and of the arc tangent of their quotient, and certifies three roundings by Taylor polynomials for the witness. |
| C140 | Splitting points by tile in float64 | Points64_Model reuses the grouping of Clip_Model over Tile64; the relative row and column are scaled by a power of two, which is exact, so the floors at neighbouring zooms agree. |
| C141 | Thinning a tile in float64 | copy the structure of C119 over binary64; relative error per addition for the mean, margins for the shares, eight steps of tile_above for the cells |
| C142 | The cover of whole geometries in float64 | union by induction over the parts, then C137 and C138 for each part |
| C143 | Clipping lines to tiles in float64 | On top of C121 (one cut in binary64): count the pieces of a cut of a segment or of a one-way line in the exact run; compose two cuts with the edges of C118; then induct over the levels as in C135, with the level-by-level lemmas made generic in the kind of geometry. |
| C144 | ClipFeature in float64 takes any geometry, keeps levels faithfully and zooms out to the right ancestor | Theorems C144_total, C144_keep, C144_small, C144_small_holds, C144_point_refuted |
| C145 | ReadTile and ReadRawTile of whole tiles in float64 | The loops of both readers over the bytes of written layers are followed with the layer invariants of C19; both sides decode the same commands, so that C136's per-geometry result carries over |
| C146 | Lines clipped to a tile, written and read again in float64 | Compose C143 (parts of lines), C136 (grid points next to positions) and C145 (ReadTile); positions near a tile are near its grid by the Lipschitz bounds of the projection; removing repeated grid points does not change a line |
| C147 | Points sorted into tiles, written and read again in float64 | Compose C140 (groups), the tile of a position (C135), C136 (grid points next to positions) and C145 (ReadTile) |
| C148 | Polygons written and read again in float64 contain the same points | From C136 and C145: moving each vertex by at most a unit moves no edge across a point that is clear of the outline; squeezing, closing and reversing a ring keep the parity of crossings |
| C149 | Polygons clipped to a tile, written and read again in float64 | Compose C134 with C148; the vertices of a cut ring are in the band on one axis and within the range of the ring on the other (C121, C25) |
| C150 | Polygons clipped to the tiles of a zoom, written and read again in float64 | Induction over the levels: rings stay within the child (as in C149) and latitudes grow by at most 2e-7 a level, also when a square is taken for the tile (C134); then C135 and C148 |
| C151 | Polygons with more area than their rim survive the grid in float64 | The change of the surveyor's formula along one edge is a difference of two vertex terms, which cancel around a ring, and two products with the rounding; induction over the edges; then C148 |
| C152 | Polygons without area join the polygon before | Induction over the polygons: the reader starts a polygon at rings of positive area only, or at the first ring |
| C153 | Integer polygon writers lose which rings belong together | Rings decoded as in C13, grouping shown to be the unique cut before positive rings; count holes with area. |
| C154 | Several points never come back | Every line read uses up two numbers more than twice its points, and the leading command is never the 9 the reader looks for. |
| C155 | Polygons with large coordinates keep their rings, not their direction | Redo the encoding lemmas of C13 without the area bound, keeping only that each ring is emitted in one of its two directions; grouping from C153. |
| C156 | Lines of any int32 points: exactly when they come back | The encoding of wrapped steps is that of the moved points (lemmas of C11 for unbounded points), and the moved points are unique. |
| C157 | Geometries of other producers, encoded as the specification says | Specification encoder written from section 4.3 without the writers; induction over the loop of LoadGeometry; grouping and its uniqueness from C153; length bound from C154. The examples of the specification are checked literally. |
| C158 | What the writers emit and where it breaks the specification | The step lists of C10-C13 are the specification's moves of the points that differ from their predecessor; encodings are unambiguous because the reader's loop returns the rings encoded. |
| C159 | Geometries encoded as the specification says, read in binary64 | Corollary of C157 and of the agreement of the float64 reader with exact arithmetic (C123); the numbers of the encoding are shown to be 32 bit words. The refutation is computed with Flocq's binary64. |
| C160 | Which writers wind polygons as the specification demands | Encodings from C158; areas of the written rings from C152 and C153; unambiguity of encodings from C158. |
| C161 | Geometries of other producers survive reading and writing | Composition of C157, C152 and C158; the winding step leaves rings alone that already have the right sign; unambiguity of encodings from C158. |
| C162 | Features of other producers from bytes to geometry | The feature loop lemma of C19 for arbitrary geometry numbers, then C157; nothing about how the tables of the layer were made is used. |
| C163 | The fields of a feature in any order | Induction on the fields, one step lemma per field kind; the geometry step also away from the end of the message. |

## Assumptions per theorem

Written by `tools/assume.py` from the output of `Print Assumptions` on each of the 725 theorems and examples named after a property.
All axioms are those of the standard library; none is added here.

### No axioms (310)

C01: nonvacuous, quadkey_round_trip_iff, world_tile_refuted; C02: children_extend_quadkey, digits_are_quadkeys, nonvacuous; C03: nonvacuous, tilestr_round_trip; C04: every_delimiter, file_round_trip_iff, no_delimiter_panics, nonvacuous; C06: children_distinct; C07: parent_of_world_refuted; C09: encoded_parameter_is_zigzag, nonvacuous, parameter_bijection, parameter_round_trip; C10: command_decodes, count_overflow_refuted, named_commands, nonvacuous; C11: float_line_round_trip, int32_overflow_refuted, line_round_trip, nonvacuous; C12: int_multiline_round_trip, multiline_round_trip, nonvacuous; C13: large_extent_refuted, multipolygon_round_trip, nonvacuous, polygon_round_trip, seen_orientation; C14: int_polygon_holes_become_polygons, nonvacuous, orientations_opposite; C15: multipoint_unreadable_refuted, nonvacuous, origin_refuted, point_round_trip_iff; C16: nonvacuous; C18: dictionary, fails_iff, nonvacuous, values_stored_once; C19: lazy_round_trip, line_read_back, nonvacuous, raw_round_trip; C20: id_leak_refuted, ids_faithful_iff, nonvacuous, own_geometry, properties, properties_nonvacuous, read_raw_tile_round_trip, read_tile_round_trip; C21: extended_layer_never_ends, negative_size_never_ends, nonvacuous, truncated_never_ends, unknown_field_never_ends, written_ends; C22: nonvacuous, overlong_name, panics_become_errors, silent_failures_refuted; C23: lk_render_refuted, nonvacuous, render_reparses; C24: nonvacuous, tag_decodes, tags_distinct, unknown_dialect; C26: empty_line_panics; C28: multiline_lost; C30: nonvacuous, partition; C31: nonvacuous, shared_tileid, wrong_for_the_others; C34: only_flags_written; C36: nonvacuous, one_point_per_cell; C37: fill_vals, get_dif, nonvacuous; C40: empty_line_panics, line_cover, nonvacuous; C42: multipoint_panics; C43: drawing_faithful, duplicate_names_refuted, no_overlap, nonvacuous, sprites_disjoint; C44: inside_sheet, nonvacuous; C45: generate_never_panics, no_panic_first_largest, nonvacuous, unsorted_refuted; C46: drops_text_refuted, nonvacuous, parse, round_trip; C50: new_style_set, nonvacuous; C51: panics, reads, round_trip; C56: nonvacuous, odd_rejected, replicated_border; C57: backfill_refuted, nonvacuous, other_size, same_size_unchanged; C60: nonvacuous; C62: coverage, nonvacuous, order_irrelevant; C64: map, nonvacuous, rows; C65: atomic_refuted, nonvacuous, outcomes; C67: content_types, media_types, names, names_refuted, nonvacuous, round_trip, unknown; C68: detects, mesh_nonvacuous, mesh_refuted, nonvacuous, open, webp; C69: errors_refuted, nonvacuous; C70: complete, failures, first_request, nonvacuous, truncated_refuted; C71: extracts, nonvacuous, relation_refuted, several_refuted, single; C72: agree, bad_key, fields, nonvacuous, properties, shadow_refuted, tags; C73: IsEqual_iff, nonvacuous; C74: decoded_polygons_wellformed, decoder_terminates, no_invented_points, nonvacuous; C77: nonvacuous, point_clip_consistent; C80: nonvacuous, raw_tile_field_after_geometry_refuted, skip_distance; C81: next_layer_read_as_key, nonvacuous; C82: nonvacuous, signed_value, signed_value_refuted, unknown_value_skipped; C83: nonvacuous, tags; C84: last_layer_of_a_name, nonvacuous; C88: load_outcomes, nonvacuous, premultiplied; C92: auth, deterministic, escape, nonvacuous, once_refuted, round_trip; C93: confined_refuted, injective, nonvacuous, paths; C96: end_and_reset, nonvacuous, stuck_feature_refuted, visits_each_once, written_layer; C98: keys_joined, nonvacuous, null_grid_refuted, open, panics_iff, simple_reads; C99: accepts; C104: keys, keys_nonvacuous; C107: nonvacuous, single, tile_known, tiles; C108: failed_write, nonvacuous, read, round_trip; C109: identity; C110: identity; C112: coverage; C113: accessors, answers, create, format_refuted, nonvacuous, reopen, tiles, timestamp; C115: adjacent_refuted, closed, moved, multi, nan_refuted, nonvacuous, panic, twice, written; C127: nonvacuous, to_string_injective, to_string_unread_refuted; C128: error, nonvacuous, text; C130: lazy_any_order, nonvacuous, other_type_refuted, read_tile_any_order, type_last_refuted; C131: any_list_bound, input_bound_refuted, nonvacuous, room_for_points, written_lines, written_polygons; C152: any, multipolygon, nonvacuous, polygon; C153: any, areas, count, nonvacuous, one, polygon, unique; C154: fewer_refuted, layer_refuted, nonvacuous; C155: float, int, nonvacuous, ring; C156: exact, line, lines, nonvacuous, unique; C157: lines, nonvacuous, point, points_refuted, polygons, rings; C158: line_conforms, lines, nonvacuous, point, points, polygons, rings_refuted; C159: nonvacuous; C160: float, int_refuted, nonvacuous, rings; C161: bytes, lines, nonvacuous, polygons; C162: any_order, feature, lines, nonvacuous, points_refuted, polygons, tags, tags_nonvacuous; C163: fields, nonvacuous, parts_refuted.

### `ClassicalDedekindReals.sig_forall_dec` (6)

C51: nonvacuous; C99: by_value_refuted, nonvacuous, round_trip; C109: written; C110: written.

### `ClassicalDedekindReals.sig_forall_dec`, `FunctionalExtensionality.functional_extensionality_dep` (102)

C25: in_band, nonvacuous; C26: line_clip_exact, nonvacuous; C27: nonvacuous, polygon, ring_repair; C29: nonvacuous; C33: nonvacuous, tolerance_respected; C35: distance_is_minimum, nonvacuous; C38: closed_ring_box, nonvacuous, open_list_refuted; C39: empty_ring_panics, nonvacuous, ray_parity, rectangle, representation_independent; C41: nonvacuous; C49: nonvacuous, validate; C52: hex, nonvacuous; C53: accepts, channels, greys, nonvacuous; C54: mapbox_decode_pack, mapbox_pack_decode, mapbox_wraps, nonvacuous; C55: terrarium_exact_iff, terrarium_exact_refuted, terrarium_within_a_metre; C58: bulk_read, nonvacuous, reads_wrap, transposed; C59: edt1d_exact, nonvacuous, short_buffer_panics; C75: clipped_rings_closed, nonvacuous, polygon_band, triangle_tip_open_refuted; C79: multipolygon_band, nonvacuous; C85: draw_glyph, margin, nonvacuous; C86: edge_ramp, first_edge_ignored, nonvacuous; C87: builder_options, nonvacuous; C88: encode_load_read, save_load; C91: alpha, alpha_monotone_refuted, anchored_refuted, names, nonvacuous, parse, whole; C97: accuracy, collapse_refuted, empty_iff, nonvacuous, pointwise, rings_closed; C100: nonvacuous, outcomes, reads; C101: nonvacuous, outcomes, reads; C104: layers, nonvacuous, version; C109: nonvacuous, reads, refuted, round_trip; C110: nonvacuous, reads, refuted, round_trip, values; C111: listing, message, nonvacuous, page_values, pages, status_refuted, style, tilejson; C112: languages, nonvacuous; C119: mean; C122: kept_exact.

### `ClassicalDedekindReals.sig_forall_dec`, `ClassicalDedekindReals.sig_not_dec`, `FunctionalExtensionality.functional_extensionality_dep` (10)

C60: edt_exact; C61: bilevel_separates, nonvacuous, sdf_formula, thin_image_panics; C63: glyph_range, no_margin_panics, nonvacuous, range_wraps; C86: bilevel_picture.

### `ClassicalDedekindReals.sig_forall_dec`, `ClassicalDedekindReals.sig_not_dec`, `Classical_Prop.classic`, `FunctionalExtensionality.functional_extensionality_dep` (297)

C05: bounds_adjacent, nonvacuous, tile_iff_inside, unique_tile, world_bounds; C06: children_partition, nonvacuous; C07: center_strictly_inside, nonvacuous, parent_halves, parent_of_child; C08: antimeridian_refuted, binary64_column, binary64_off_map_refuted, nonvacuous, tile_on_map; C16: clamped_to_extent, inside_unchanged, outside_goes_to_edge; C17: nonvacuous, regrid_identity, round_trip_error, unproject_project; C25: in_band_binary64; C28: lost_witness, other_pieces_lost, single_piece_exact; C29: inside_survives, outside_panics, panic_iff_nothing_left; C30: partition_tiles; C32: first_zoom, nonvacuous, outside_world; C41: polygon_cover_exact, thin_polygon_refuted; C42: multiline_union, multipolygon_union, nonvacuous; C47: after_last, at_stop, before_first, between_stops, falling_refuted, nonvacuous, rising_and_falling; C48: at_stop, between_stops, ends, nonvacuous, other_colours_panic; C66: foreign_rows, identity, nonvacuous, refuted, round_trip, stable; C68: mesh_fields; C69: panics, round_trip, rounding, rounding_nonvacuous, values; C75: clip_tile; C76: children_entries, nonvacuous, polygon_membership; C78: adjacent_only_ends, between_sound, every_column, every_row, line_cover_gap_refuted, line_every_column, line_every_row, nonvacuous; C89: get_binary64, nonvacuous, pack_binary64, repack_drift, repack_refuted; C90: hsl, hsv, nonvacuous, round_trip_refuted, two_equal; C94: covers, deeper_refuted, entries, multiline_refuted, nonvacuous, point_refuted, small; C95: membership, nonvacuous, triangle_refuted; C100: evaluates, type_ignored_refuted; C101: evaluates; C102: background, by_type_refuted, nonvacuous; C103: expressions, light, nonvacuous, outcome, panics_refuted; C105: exact, exact_refuted, no_ratio, nonvacuous, round_trip, sides, small_ratios, texture; C106: arc, metric, nonvacuous, panics; C109: metadata; C113: metadata, missing; C114: accuracy, again, again_refuted, corner_refuted, geometry, lazy, new_layer, nonvacuous, read_tile, read_tile_some; C116: back, channels, legal, nan_refuted, nonvacuous, range, round_trip_refuted, two_equal; C117: bilevel_separates, nonvacuous, sdf, thin_refuted, transform; C118: center, column, edges, locate, neighbours, nonvacuous, parent, parent_of_child; C119: budget, kept, nan, nonvacuous, off, panic; C120: nonvacuous, off_map_refuted, regrid; C121: line, nonvacuous, ring, same_pieces, tile, tile_refuted; C122: exact_refuted, nonvacuous, simplify; C123: decode, encode, large_refuted, nonvacuous, tile; C124: near_edge_refuted, nonvacuous, panic, pip; C125: at_stop, flat_power_refuted, monotone, near, nonvacuous, panic, range, upper_refuted; C126: between, exact_refuted, nonvacuous, panic; C127: geohash; C129: band, nonvacuous, outline_refuted, tile; C132: flat_ring_refuted, nonvacuous, rewrite; C133: get_exact, grid, nonvacuous, terrarium_binary64, top_refuted; C134: clip_down, clip_tile, multipolygon, near_square, nonvacuous, sliver_refuted, square, square_nonvacuous; C135: first_zoom, hang_refuted, nonvacuous, result; C136: accuracy, corner_refuted, geometry, lazy, new_layer, nonvacuous; C137: between_sound, column_refuted, every_column, every_row, line, nonvacuous, overshoot_refuted, row_refuted; C138: nonvacuous, polygon, thin_refuted; C139: accuracy, near, nonvacuous, opposite_refuted, panics, same, symmetric; C140: agree, margin_refuted, nonvacuous, partition, refines; C141: budget, kept, mean, mean_refuted, nonvacuous, off, panic; C142: lines, multipoint_refuted, nonvacuous, polygons, small_refuted, union; C143: back_refuted, down, feature, ghost_refuted, nonvacuous, tile; C144: keep, nonvacuous, point_refuted, small, small_holds, total; C145: corners, nonvacuous, raw, read_tile, same; C146: feature, nonvacuous, tile; C147: nonvacuous, point, points; C148: multipolygon, nonvacuous, polygon; C149: kept, nonvacuous, polygon; C150: nonvacuous, polygon; C151: area, multipolygon, nonvacuous; C152: read_refuted; C159: far_refuted, lines, polygons, polygons_any.
