#!/usr/bin/env python3
"""Source of /verif/properties.jsonl.  Run: python3 tools/props.py"""
import json, os
P = []
def p(id, title, statement, quantifier, why, anchors):
    P.append(dict(id=id, title=title, statement=statement, quantifier=quantifier,
                  why_tests_cant=why, anchors=anchors))
INF = "The domain is unbounded; unit tests sample a handful of values."

# ---------------------------------------------------------------- tileid
p("C01","Quadkey round trip, exact domain",
  "QuadkeyToTile(QuadKey(t)) returns t exactly for the tiles t with Z >= 1 and 0 <= X,Y < 2^Z; for every other tile id (in particular the world tile 0/0/0, whose quadkey is empty) it returns a different id.",
  "every TileID whose fields are legal int64/int64/uint64 values with Z representable as int and Z <= 63", INF,
  ["tileid/tileid.go:QuadKey","tileid/tileid.go:QuadkeyToTile","tileid/tileid.go:reverse"])
p("C02","Quadkeys: decode/encode and prefix structure",
  "For every non-empty string of digits 0-3 of length at most 63, QuadKey(QuadkeyToTile(s)) = s and the decoded tile is in range for its zoom; the quadkeys of the four tiles returned by Children(t) are the quadkey of t followed by one digit (0,1,3,2 in the order Children returns them).",
  "every digit string, every tile", INF,
  ["tileid/tileid.go:QuadKey","tileid/tileid.go:QuadkeyToTile","tileid/tileid.go:Children"])
p("C03","Tile strings round trip",
  "Strtile(Tilestr(t)) = t for every tile id, including negative columns/rows and zooms above 2^63.",
  "every TileID value Go can hold", INF,
  ["tileid/tileid.go:Tilestr","tileid/tileid.go:Strtile"])
p("C04","File-name tile strings round trip, exact domain",
  "TileFromString(TilestrFile(t)) = t for every tile whose three components print without a minus sign, and TileFromString recovers the tile from 'x/y/z', 'x_y_z', 'x,y,z' and 'x y z' spellings of it; if X is negative the file-name form does not read back, and a string with no delimiter makes TileFromString panic.",
  "every TileID and every supported delimiter", INF,
  ["tileid/tileid.go:TilestrFile","tileid/tileid.go:TileFromString"])
p("C05","Point location: Tile and Bounds agree",
  "In exact arithmetic, Tile(lng,lat,z) = t if and only if Bounds(t).W <= lng < Bounds(t).E and Bounds(t).S < lat <= Bounds(t).N: the tile returned is the unique tile of that zoom containing the point.",
  "every longitude, every latitude strictly between the poles, every zoom, every tile", INF,
  ["tileid/tileid.go:Tile","tileid/tileid.go:Bounds","tileid/tileid.go:Ul"])
p("C06","Children partition the parent's area",
  "In exact arithmetic every point of a tile lies in exactly one of the four tiles Children returns, no point outside the tile lies in any of them, and the four are distinct tiles one zoom deeper.",
  "every tile and every point", INF,
  ["tileid/tileid.go:Children","tileid/tileid.go:Bounds"])
p("C07","Parent inverts Children",
  "In exact arithmetic Parent(c) = t for each c in Children(t), Parent(x,y,z) = (floor(x/2), floor(y/2), z-1) for every tile with z >= 1, and Center(t) is strictly inside Bounds(t); for the world tile Parent yields zoom 2^64-1.",
  "every tile", INF,
  ["tileid/tileid.go:Parent","tileid/tileid.go:Children","tileid/tileid.go:Center"])
p("C08","Tile indices stay on the map",
  "In exact arithmetic, for -180 <= lng < 180 and |lat| strictly inside the web-mercator limit, Tile returns 0 <= X,Y < 2^z. With binary64 arithmetic the column is in range for every double lng in [-180, 180-2^-44] and is the off-map column 2^z for the double just below 180.",
  "every coordinate and every zoom; every binary64 longitude for the column", "The failing double is one value in 2^62; tests never hit it.",
  ["tileid/tileid.go:Tile"])
# ---------------------------------------------------------------- mvt geometry
p("C09","Zig-zag parameters round trip",
  "For every int32 delta v the decoder's DeltaDim applied to the uint32 the encoder stores for v is v, and distinct deltas have distinct encodings covering all uint32 values.",
  "all 2^32 int32 values", "2^32 inputs; overflow at the int32 limits is the interesting part.",
  ["mvt/write_geometry.go:paramEnc","mvt/read_feature_lazy.go:DeltaDim"])
p("C10","Command integers",
  "For every command id in 0..7 and every count below 2^29, the command integer decodes (low three bits / upper bits) to that id and count, and two different (id,count) pairs never share an integer; at count 2^29 the count is lost.",
  "all ids and counts", INF,
  ["mvt/write_geometry.go:cmdEnc","mvt/write_geometry.go:moveTo","mvt/write_geometry.go:lineTo","mvt/write_geometry.go:closePath"])
p("C11","LineString geometry round trip",
  "Encoding any non-empty line of integer points and decoding the geometry returns that line with consecutive duplicate points merged, as a LineString, for every starting cursor position.",
  "every non-empty list of points whose consecutive differences fit int32 (in particular all points of a tile of extent < 2^30)", INF,
  ["mvt/write_geometry.go:MakeLine","mvt/write_geometry.go:MakeLineFloat","mvt/write_geometry.go:MovePoint","mvt/write_geometry.go:LinePoint","mvt/read_feature_lazy.go:LoadGeometry"])
p("C12","MultiLineString geometry round trip",
  "Encoding any list of two or more non-empty lines and decoding returns the same lines in the same order, each with consecutive duplicates merged.",
  "every list of lines", INF,
  ["mvt/write_geometry.go:MakeMultiLine","mvt/write_geometry.go:MakeMultiLineFloat","mvt/read_feature_lazy.go:LoadGeometry"])
p("C13","Polygon and MultiPolygon round trip through AddFeature's geometry path",
  "For every multipolygon whose rings have non-zero (quantised) area, encoding with the float geometry path used by AddFeature/WriteLayer and decoding returns the same polygons with the same rings in the same order: each ring closed, possibly reversed so that outer rings have positive and holes negative signed area, consecutive duplicates merged; no hole is promoted to a polygon and no polygon becomes a hole.",
  "every list of polygons with any number of rings of any length, coordinates in a tile of extent up to 16384", "Ring grouping depends on the signs of all ring areas; combinations are unbounded.",
  ["mvt/write_geometry.go:AssertConvert","mvt/write_geometry.go:MakePolygonFloat","mvt/write_geometry.go:MakeMultiPolygonFloat","mvt/write_geometry.go:SignedArea2","mvt/read_feature_lazy.go:SignedArea","mvt/read_feature_lazy.go:LoadGeometry"])
p("C14","Integer polygon API uses the opposite winding",
  "For every ring of non-zero area MakePolygon orients the ring opposite to MakePolygonFloat, so a polygon with a hole written through MakePolygon is not read back as one polygon with a hole.",
  "every polygon with at least one hole and non-zero ring areas", "Single-ring tests cannot see the orientation mismatch.",
  ["mvt/write_geometry.go:MakePolygon","mvt/write_geometry.go:assert_winding_order","mvt/write_geometry.go:SignedArea2"])
p("C15","Point geometry round trip, exact domain",
  "A point encoded with MakePoint decodes to that point exactly when it is not the tile origin (0,0); the origin's encoding makes decoding fail, and decoding fails for every encoded MultiPoint of two or more points none of whose coordinate steps is -5 (the step whose code looks like a move command).",
  "every point in int32 range", "The failing point is a single value in the tile grid.",
  ["mvt/write_geometry.go:MakePoint","mvt/write_geometry.go:MakeMultiPoint","mvt/write_geometry.go:LinePoint","mvt/read_feature_lazy.go:LoadGeometry"])
p("C16","Written coordinates are clamped to the tile",
  "With ExtentBool set, every coordinate SinglePoint produces is in [0,Extent], and points already inside are unchanged by the clamp.",
  "every projected value and every positive extent", INF,
  ["mvt/write_geometry.go:SinglePoint","mvt/write_layer.go:WriteLayer"])
p("C17","Projection and unprojection are inverse up to half a grid unit",
  "In exact arithmetic, unprojecting (Project) the real-valued tile coordinates that SinglePoint rounds gives back the original longitude/latitude, and rounding moves each coordinate by at most half a tile unit, so the longitude read back differs by at most 180/(extent*2^z) degrees.",
  "every tile, extent and point strictly between the poles and not clamped by the mercator pole", INF,
  ["mvt/write_geometry.go:ConvertPoint","mvt/write_geometry.go:ConvertCursor","mvt/write_geometry.go:SinglePoint","mvt/read_feature_lazy.go:Project"])
# ---------------------------------------------------------------- mvt layers
p("C18","Property dictionary is consistent",
  "After any sequence of features has been added to a layer, every (key index, value index) pair written for every feature points at that feature's key and value in the layer's key and value tables, whatever order Go iterates the property maps in; keys appear once each.",
  "every sequence of features, every property map, every map iteration order", "Map iteration order is random and dictionary state depends on the whole history.",
  ["mvt/write_layer.go:GetTags","mvt/write_layer.go:AddKey","mvt/write_layer.go:AddValue"])
p("C19","Whole-layer round trip through the lazy reader",
  "Parsing with NewTile the bytes WriteLayer produces for any list of features yields one layer with the written name, extent and version and, for each feature in order, Feature() returns the written id (0 if none), the written properties (values normalised to the wire types) and the written geometry commands.",
  "every list of features, every property map and iteration order, both wire dialects", INF,
  ["mvt/write_layer.go:WriteLayer","mvt/write_feature.go:AddFeature","mvt/write_feature.go:AddFeatureRaw","mvt/read_tile.go:NewTile","mvt/read_layer.go:NewLayer","mvt/read_feature_lazy.go:Feature","mvt/read_feature_lazy.go:LoadGeometryRaw"])
p("C20","Whole-tile round trip through ReadTile, and its id leak",
  "ReadTile (and ReadRawTile for raw commands) on the bytes of WriteLayer returns the written features in order with properties (plus 'layer') and geometry; id, type and geometry of a feature written without one are those of the nearest preceding feature of the layer that had one (so ids are faithful exactly when no id-less feature follows a feature with an id).",
  "every list of features", "Depends on the order of features with and without ids.",
  ["mvt/read_tile.go:ReadTile"])
p("C21","Tile parsing does not always terminate",
  "NewTile terminates on every output of WriteLayer, but it never returns on a layer that starts with an unknown field, on a written layer with an unknown field appended, on a layer cut off right after its size, nor on a tile whose first layer claims a size that wraps back to its own start.",
  "every byte string", "Non-termination is not observable by a finite test.",
  ["mvt/read_layer.go:NewLayer","mvt/read_tile.go:NewTile"])
p("C22","Tile errors: panics become errors, except in ReadRawTile and ToGeoJSON",
  "NewTile and ReadTile return an error exactly when parsing panics, while ReadRawTile returns a nil error with no features exactly then, and ToGeoJSON returns a nil error with a nil geometry exactly when the geometry cannot be decoded.",
  "every byte string on which parsing panics", "Quantifies over all malformed inputs.",
  ["mvt/read_tile.go:NewTile","mvt/read_tile.go:ReadTile","mvt/read_tile.go:ReadRawTile","mvt/read_feature_lazy.go:ToGeoJSON"])
p("C23","Render re-emits the layers it parsed",
  "For any tile of written layers in the Mapbox dialect, Render outputs the layers' bytes in map order, so it parses to the same layers whatever the map iteration order; in the LK dialect the rendered bytes carry the wrong layer tag and the layer can be lost.",
  "every list of written layers with distinct names and every map order", "Random map iteration order.",
  ["mvt/read_tile.go:Render","mvt/read_tile.go:NewTile"])
p("C24","Wire tags of both dialects are unambiguous",
  "In both wire dialects the tag byte written for each field decodes to that field's number and wire type, fields of one message have pairwise distinct tags, and an unknown dialect behaves as the Mapbox one.",
  "all fields of both dialects, every ProtoType value", INF,
  ["mvt/proto.go:getProto","mvt/proto.go:MapboxProto","mvt/proto.go:LKProto","mvt/write_layer.go:tagAndType"])
# ---------------------------------------------------------------- clip
p("C25","Clipped geometry stays inside the band",
  "Every point of every piece produced by clipping a line or ring to k1..k2 along an axis has its coordinate on that axis within [k1,k2]; this holds exactly even in binary64 arithmetic because cut points carry the bound itself.",
  "every polyline/ring, every band, both axes", INF,
  ["mvt/clip.go:clipLine","mvt/clip.go:Intersect"])
p("C26","Line clipping keeps exactly the part inside the band",
  "In exact arithmetic, a point belongs to some clipped piece of a polyline (as a union of segments) if and only if it belongs to the polyline and lies inside the band.",
  "every polyline, band and point of the plane", "Universally quantified over a continuum of points.",
  ["mvt/clip.go:clipLine"])
p("C27","Ring repair",
  "LintPolygon returns every ring closed (first point equals last), keeps all other points, and is idempotent; rings whose ends are within 1e-7 keep their length, others gain one point.",
  "every polygon with non-empty rings", INF,
  ["mvt/clip.go:LintPolygon","mvt/clip.go:LintMultiPolygon","mvt/clip.go:DeltaFirstLast"])
p("C28","Clipping to a tile loses multi-part lines",
  "A LineString that clipping on the first axis splits into zero or several pieces is returned by ClipTile with no coordinates at all, as is every MultiLineString; a line that stays one piece on the first axis is clipped correctly on both axes.",
  "every line and tile", "Needs lines that leave and re-enter the tile.",
  ["mvt/clip.go:clip","mvt/clip.go:ClipTile"])
p("C29","ClipTile on polygons outside the tile",
  "ClipTile panics for every polygon that does not meet the tile's longitude band, and does not panic when at least one ring survives both clips.",
  "every polygon and tile", INF,
  ["mvt/clip.go:ClipTile","mvt/clip.go:makefeature","mvt/clip.go:clip"])
p("C30","MultiPoint splitting by zoom is a partition",
  "PointClipAboutZoom distributes the points of a MultiPoint so that each result tile holds, in order, exactly the input points whose tile it is; every input point occurs in exactly one result, no result is empty.",
  "every list of points and zoom", INF,
  ["mvt/clip.go:PointClipAboutZoom","mvt/clip.go:PointClipAboutTile"])
p("C31","Split features share one property map",
  "All features returned by PointClipAboutZoom for one MultiPoint alias the same property map, so after the call every one of them reports the same TILEID, which for two or more tiles is wrong for all but one of them.",
  "every MultiPoint and every map iteration order", "Aliasing and random map order.",
  ["mvt/clip.go:PointClipAboutZoom"])
p("C32","First covering zoom",
  "GetFirstZoom returns the deepest zoom below 30 at which all four corners of the box share a tile, and that tile; if the corners share a tile at every zoom below 30 it returns tile 0/0/30 whatever the position.",
  "every box", INF,
  ["mvt/clip.go:GetFirstZoom"])
# ---------------------------------------------------------------- simplify / reduce
p("C33","Simplification respects the tolerance",
  "In exact arithmetic, after Simplify every vertex that was not kept lies within the tolerance of the segment joining the two kept vertices around it, and every kept interior vertex was written a value greater than the tolerance.",
  "every coordinate array and tolerance", INF,
  ["mvt/simplify.go:Simplify"])
p("C34","Simplification only writes importance flags",
  "Simplify never changes an x or y coordinate nor any entry outside the open range between its two end vertices, and terminates without panic for every array of whole triples.",
  "every array, range and tolerance", INF,
  ["mvt/simplify.go:Simplify"])
p("C35","Point-segment distance is the true minimum",
  "In exact arithmetic GetSqSegDist equals the minimum over the segment of the squared distance to the point (it is attained and nothing on the segment is nearer).",
  "every point and segment, including degenerate ones", INF,
  ["mvt/simplify.go:GetSqSegDist"])
p("C36","Feature reduction admits one point per cell",
  "Over any sequence of Filter calls with one configuration, a point feature is accepted iff no earlier accepted point or multipoint fell into the same cell, so exactly one is accepted per distinct cell.",
  "every history of calls", "Quantifies over call histories.",
  ["mvt/feature_reduce.go:Filter"])
# ---------------------------------------------------------------- tile cover
p("C37","Index ranges",
  "FillVals(a,b) lists exactly the integers strictly between a and b in increasing order whichever is larger; GetDif(a,b) lists a..b inclusive when a <= b and just a otherwise.",
  "every pair of integers", INF,
  ["tile_cover/line_corner_case.go:FillVals","tile_cover/tile_cover.go:GetDif"])
p("C38","Bounding box of a closed ring",
  "For every closed ring with at least two points inside the world bounds BoundingBoxPoints returns exactly the minimum and maximum of each coordinate; for open point lists it can miss the maximum (e.g. when x decreases).",
  "every ring", INF,
  ["tile_cover/tile_cover.go:BoundingBoxPoints"])
p("C39","Point-in-polygon is ray-crossing parity",
  "In exact arithmetic Pip is true iff an odd number of polygon edges cross the rightward horizontal ray from the point, it does not depend on whether rings repeat their first point, on the starting vertex or on the direction of rings, and for a rectangle it is exactly membership in the half-open rectangle.",
  "every polygon and point", INF,
  ["tile_cover/tile_cover.go:Pip"])
p("C40","Line cover lists each visited vertex tile once",
  "GetTilesLine returns no duplicate tiles, starts with the first vertex's tile and contains the tile of every vertex.",
  "every non-empty line, any point-to-tile function", INF,
  ["tile_cover/tile_cover.go:GetTilesLine","tile_cover/line_corner_case.go:BetweenTiles"])
p("C41","Polygon cover",
  "In exact arithmetic GetTilesPolygon returns, without duplicates, exactly the tiles in the row and column range of the outer ring that hold a vertex or have a corner inside the polygon, in particular the tile of every outer vertex; a thin polygon can cross a tile that is not returned.",
  "every closed polygon and zoom", INF,
  ["tile_cover/tile_cover.go:GetTilesPolygon","tile_cover/tile_cover.go:TilePolygon","tile_cover/tile_cover.go:RunPolygon"])
p("C42","Multi-geometry cover is the duplicate-free union",
  "For MultiLineString and MultiPolygon features TileCover returns, without duplicates, exactly the union of the covers of the parts; for every MultiPoint feature with no line coordinates it panics.",
  "every list of parts", INF,
  ["tile_cover/tile_cover.go:TileCover","tile_cover/tile_cover.go:CreateMap"])
# ---------------------------------------------------------------- sprite
p("C43","Packed sprites never overlap",
  "After Fit, no two placed blocks overlap, for every list of blocks on which Fit does not panic.",
  "every list of blocks of non-negative size", "Combinatorial in the number and sizes of blocks.",
  ["sprite/growing_packer.go:Fit","sprite/growing_packer.go:splitNode","sprite/growing_packer.go:growRight","sprite/growing_packer.go:growDown"])
p("C44","Packing stays inside the sheet",
  "Every placed block has non-negative position and lies inside the sheet whose size GenerateSprite computes.",
  "every list of blocks", INF,
  ["sprite/growing_packer.go:Fit","sprite/sprite.go:GenerateSprite"])
p("C45","Packing never fails on area-sorted input",
  "Fit never panics when blocks are sorted by non-increasing area (which GenerateSprite does with any permutation sort.Slice may return); on unsorted input it can panic.",
  "every list of blocks and every permutation consistent with the sort", "sort.Slice is unstable: any order among ties must work.",
  ["sprite/growing_packer.go:growNode","sprite/sprite.go:GenerateSprite"])
p("C46","Style file names round trip",
  "ParseStyleFile(f.String()) = f exactly for the style files with a lower-case, '@'-free non-empty type, an alphanumeric lower-case extension and pixel ratio >= 1. In general ParseStyleFile reads the leftmost substring of that shape that reaches the end of the text, fails when there is none and never panics; text in front of it is dropped, so the name is not always preserved.",
  "every ASCII file name", INF,
  ["sprite/style_file.go:ParseStyleFile","sprite/style_file.go:String"])
# ---------------------------------------------------------------- style
p("C47","Numeric zoom functions",
  "In exact arithmetic a numeric stop function returns the stop value exactly at each stop zoom, the last value beyond the last stop, 0 before the first, and between two stops with increasing values the exponential interpolation, which lies between them; with decreasing values it returns the mirror image, outside the interval. An empty stop list panics.",
  "every stop list, zoom and positive base", INF,
  ["style/numeric_function.go:GetValueAtZoomLevel","style/numeric_function.go:getNumericValueBetweenStops","style/function.go:getExponentialPercentage"])
p("C48","Colour zoom functions",
  "In exact arithmetic each channel of an interpolated colour lies between the channels of the two neighbouring stops (so no wrap-around occurs) and equals the stop's channel at the stop; interpolating any colour that is not RGBA (an HSL colour for example) panics.",
  "every stop list, zoom and positive base", INF,
  ["style/color_function.go:GetValueAtZoomLevel","style/color_function.go:getColorValueBetweenStops","style/function.go:getValueThroughStop"])
p("C49","Layer validation",
  "Layer.Validate accepts exactly the layers that have both zoom limits, both within 0..24 and min <= max; it panics exactly when the maximum is missing, or the minimum is missing and the maximum is legal.",
  "every layer", INF,
  ["style/layer.go:Validate"])
p("C50","Style sets",
  "NewStyleSet succeeds iff the style ids are pairwise distinct and the default id is among them; then GetStyleByID returns the style with that id, GetDefaultStyle the default one, and GetAllStyleIDs every id exactly once.",
  "every list of styles", INF,
  ["style/styling.go:NewStyleSet","style/styling.go:GetStyleByID","style/styling.go:GetAllStyleIDs"])
p("C51","Filter parsing",
  "Parsing a filter document yields a tree with the same operator at every node and one sub-filter per nested array in order, at any nesting depth; exactly the documents containing null, an empty array or a scalar first operand at a place the parser visits panic. Writing a filter and parsing it gives the filter back.",
  "every JSON document", "Nesting depth is unbounded.",
  ["style/filter.go:unmarshalFilter","style/filter.go:ComparativeFilter"])
p("C52","Hex colours",
  "Every #rrggbb string of hex digits parses to the colour with those three bytes and the default alpha, #rgb means #rrggbb with digits doubled, and every other '#' string is rejected with an error.",
  "every string starting with '#'", INF,
  ["style/colors.go:getHexColor"])
p("C53","HSL colours produce legal channels",
  "In exact arithmetic NewHSLColor accepts exactly the documented ranges, and every channel of an accepted colour is 257 times the byte of the CSS hsl() formula, so a multiple of 257 between 0 and 65535; greys have equal channels.",
  "every hue, saturation, luminosity", INF,
  ["style/colorextra/hsl.go:RGBA","style/colorextra/hsl.go:NewHSLColor","style/colorextra/hsl.go:hueToRGB","style/colorextra/uint32.go:ConvertUint8ToUint32Color"])
# ---------------------------------------------------------------- raster
p("C54","Mapbox elevation encoding",
  "In exact arithmetic, for every elevation in [-10000, 1667721.6) decoding the packed bytes gives a value at most 0.1 below the elevation and never above it, the packed bytes of a decoded value are the original bytes, and heights 1677721.6 apart pack identically, so out-of-range heights wrap.",
  "every elevation; all byte triples", INF,
  ["raster/raster.go:MapboxPacker.Pack","raster/raster.go:Get"])
p("C55","Terrarium elevation encoding loses the fraction",
  "For every elevation in [-32768,32768) the Terrarium packer followed by decoding is within one metre, the two high bytes are correct, but the fraction byte is always below 25: the representable height n/256 - 32768 survives only if n mod 256 = n mod 25, and sea level comes back as 8/256.",
  "every elevation", INF,
  ["raster/raster.go:TerrariumPacker.Pack","raster/raster.go:Get"])
p("C56","DEM tiles replicate their border",
  "NewDEMData of an even number of pixels takes the integer square root as dimension and stores at every position (x,y) with -1 <= x,y <= dim the input pixel at the clamped position; it returns nil exactly for odd pixel counts.",
  "every dimension and every pixel content", INF,
  ["raster/raster.go:NewDEMData","raster/raster.go:idx"])
p("C57","Border backfill does nothing for equal-sized neighbours",
  "BackfillBorder leaves a tile unchanged for every neighbour of the same dimension; for a different dimension it fills exactly the strip facing the neighbour, reading the neighbour with this tile's stride, and panics exactly when the last such position is outside the neighbour. So the strip is not the neighbour's adjacent pixels.",
  "every pair of tiles and offset", INF,
  ["raster/raster.go:BackfillBorder"])
p("C58","Bulk elevation read-out",
  "GetData returns dim*dim values whose entry x*dim+y is the elevation at (x,y), i.e. the transpose of the input row order. Reading one column beyond the right border returns the next row's left border instead of panicking.",
  "every tile", INF,
  ["raster/raster.go:GetData","raster/raster.go:Get"])
# ---------------------------------------------------------------- font
p("C59","1-D distance transform is exact",
  "In exact arithmetic edt1d computes, for every q, the minimum over p of (q-p)^2 + f(p), without index errors, for every f with values in [0,1e20], when the boundary buffer has at least one element more than the line; with a buffer of exactly the line length a constant line panics.",
  "every sampled function and length", INF,
  ["font/sdf_builder.go:edt1d"])
p("C60","2-D distance transform is exact",
  "In exact arithmetic edt turns a grid of squared costs into the Euclidean distance transform: each output is the square root of the minimum over all pixels of squared distance plus cost.",
  "every grid", INF,
  ["font/sdf_builder.go:edt"])
p("C61","SDF bitmaps have the right size and range",
  "CalcSDF of an image of at least 2x2 pixels returns width*height bytes, byte (x,y) being 255 - 255*((outer-inner)/radius + cutoff) rounded and clamped to 0..255, with outer and inner the Euclidean distance transforms of the two cost grids. For fully opaque/transparent images with radius 8 and cutoff 1/4 every inside byte is at least 223 and every outside byte at most 159. A uniform image one pixel wide or high panics.",
  "every image of at least 2x2 pixels", INF,
  ["font/sdf_builder.go:CalcSDF"])
p("C62","Language coverage counts",
  "For every list of fonts the coverage report's Count is the number of exemplar characters present in at least one font, Total the number of exemplars, and Coverages[i] the number first covered by font i; the Count does not depend on the order of the fonts.",
  "every font list and exemplar list", INF,
  ["font/cover.go:coverage","font/cover.go:difference"])
p("C63","Glyph ranges",
  "Glyphs(min,max) contains exactly the renderable code points in [min,max) in increasing order, each with the size and offsets the face reports and a bitmap with the margin on every side, so the upper bound named in the range is never included. Ranges beyond int32 wrap around to low code points; without a margin an evenly covered one-pixel-wide glyph panics.",
  "every range and font", INF,
  ["font/sdf_builder.go:Glyphs"])
# ---------------------------------------------------------------- mbtiles
p("C64","Tile store behaves as a map",
  "For every history of StoreTile calls, ReadTile returns the data of the latest successful StoreTile for those coordinates, and nil when there is none; coordinates of 2^63 or more are errors for both, and the tile table holds one row per distinct coordinate triple.",
  "every history", "Histories are unbounded.",
  ["mbtiles/mbtiles.go:StoreTile","mbtiles/mbtiles.go:ReadTile"])
p("C65","Metadata update is not crash-atomic",
  "Whatever statement of UpdateMetadata fails, or after whichever the process stops, the database afterwards holds the old metadata, no metadata, or the new metadata, never a mixture; a nil result means new metadata unless the commit failed. It is not atomic: old metadata can be lost, even with a nil result.",
  "every crash point, every old and new metadata", "Crash points between statements.",
  ["mbtiles/mbtiles.go:UpdateMetadata"])
p("C66","Metadata round trip",
  "GetMetadata after a successful UpdateMetadata(md) returns md with bounds, centre and resolution factor rounded to 8 decimals and with version and attribution emptied, for every md with non-zero max zoom, whatever order rows are stored in; with max zoom 0 both zooms come from the tiles and an empty tile set yields an error. So md survives exactly if it has no version, no attribution, a proper type and short decimals, and what was read survives the next update. A table written by other programs reads only if its zooms are integers, and any layer type but overlay reads as a base layer.",
  "every metadata record and map iteration order", INF,
  ["mbtiles/mbtiles.go:GetMetadata","mbtiles/metadata.go:ToMap"])
p("C67","Format names",
  "StringToTileFormat(TileFormatToString(f)) = f for the formats 0 to 10 and TileFormatToString panics for every other byte; the stored name differs from TileFormat.String for exactly PNG, JPG, PBF and WEBP (stored as jpg, webp, gzib, zlib); strings outside the table read as UNKNOWN.",
  "all formats", "Finite but the two tables must agree on all entries.",
  ["mbtiles/metadata.go:StringToTileFormat","mbtiles/metadata.go:TileFormatToString","mbtiles/mbtiles.go:formatStrings"])
p("C68","Format detection is order independent",
  "Whatever order Go iterates the signature table in, detectTileFormat returns the same format for the same data, namely the one whose signature is a prefix; WebP data is recognised only if its RIFF size field is 192; a terrain mesh is detected only if no signature matches its first bytes; NewDB reports gzip data as PBF.",
  "every byte string and every iteration order", "Random map iteration order.",
  ["mbtiles/mbtiles.go:detectTileFormat"])
p("C69","Comma-separated numbers",
  "stringToTileSize(tileSizeToString(ts)) = ts for every pair of ints, and bounds and centres written and read back are off by less than 1e-8 (not at all from 2^26 on) and stable afterwards; parsing panics exactly if there are more components than the target array has; an error in a component other than the last is lost.",
  "every pair; every string", INF,
  ["mbtiles/metadata.go:stringToTileSize","mbtiles/metadata.go:tileSizeToString","mbtiles/metadata.go:stringToBounds"])
# ---------------------------------------------------------------- client / tilejson
p("C70","Paged listings are complete and ordered",
  "ListStyles and ListTilesets return items exactly when the server's pages form a finite chain, and then they return all pages joined in the order of the links; they fail exactly when a request reached by following links fails, panic exactly when a reached page has a next header without brackets, and go on for ever exactly when the chain does not end; the first request goes to the user's path with exactly the given parameters and the token. A next address that does not parse ends the listing without an error.",
  "every server behaviour, token, user and choice of parameters", "Number of pages is unbounded.",
  ["client/client.go:ListStyles","client/client.go:ListTilesets","client/client.go:nextPageURL"])
p("C71","Next-page link extraction",
  "For a Link header that contains next, nextPageURL uses the text between the first less-than and the last greater-than sign, and panics exactly when there is no such pair; for one link that is its address, for several links it is none of them. The relation itself is not looked at.",
  "every header without newline", INF,
  ["client/client.go:nextPageURL"])
p("C72","Struct field schemas",
  "StructToFields gives every name the schema type (Number, String or Boolean) of the last field with that name tag and a supported kind; StructToProperties gives it the value of the last tagged field, and panics exactly on an unexported tagged field. Every schema name is a property, and a property from a field of supported kind has that kind's schema type; a later field of unsupported kind takes the property but leaves the schema. Name tags are the first name pair of the tag text.",
  "every struct shape", INF,
  ["tilejson/utils.go:StructToFields","tilejson/utils.go:StructToProperties"])
p("C73","Tile equality",
  "IsEqual(a,b) is true if and only if a and b are the same tile.",
  "every pair of tiles", INF,
  ["tileid/tileid.go:IsEqual"])
p("C74","Geometry decoding of arbitrary commands is total and well formed",
  "LoadGeometry terminates on every command list (value or error); every ring of a decoded polygon is closed and non-empty; in a decoded multipolygon every polygon but possibly the first starts with a ring of positive area and all later rings of a polygon have non-positive area; no coordinates are produced beyond those the commands carry.",
  "every list of uint32 commands and every geometry type", "Malformed tiles form an unbounded input space; fuzzing samples it.",
  ["mvt/read_feature_lazy.go:LoadGeometry"])

p("C75","Polygon clipping preserves the interior",
  "Clipping a polygon to a band, or by ClipTile to a tile, keeps the even-odd membership of every point strictly inside the band or tile; ClipTile panics only when no such point is inside the polygon; clipped rings of four or more points are closed, while a three-point ring (the tip of a triangle) comes back open.",
  "every polygon whose rings' ends coincide or differ by more than 1e-7, every band or tile, every point of the plane", "Universally quantified over a continuum of points.",
  ["mvt/clip.go:clip","mvt/clip.go:clipLine","mvt/clip.go:ClipTile"])
p("C76","Clipping down one zoom",
  "ClipDownTile returns for each child the geometry clipped to that child's own bounds, so a point strictly inside a child is in that child's polygon iff it is in the original one.",
  "every polygon, tile and point", INF,
  ["mvt/clip.go:ClipDownTile"])
p("C77","The two point-splitting entry points agree",
  "PointClipAboutTile keeps exactly the points that PointClipAboutZoom assigns to that tile, in the same order, whatever order the tiles are produced in.",
  "every list of points, every tile and map order", "Random map iteration order.",
  ["mvt/clip.go:PointClipAboutTile","mvt/clip.go:PointClipAboutZoom"])
p("C78",'How far the line cover is complete',
  'Every tile produced for a long segment holds a point of its straight line overshooting the segment by at most 1e-7 degrees; every column and row strictly between those of the ends is visited; but between neighbouring rows and columns only the end tiles are produced, so a line can pass through a tile that is not returned.',
  'every segment, zoom and map order', 'Universally quantified over a continuum of points.',
  ['tile_cover/line_corner_case.go:BetweenTiles', 'tile_cover/line_corner_case.go:ProduceVals', 'tile_cover/line_corner_case.go:Interpolate', 'tile_cover/tile_cover.go:GetTilesLine'])
p("C79",'Multipolygon clipping preserves the interior',
  'Clipping a multipolygon to a band keeps, for every point strictly inside the band, how many member polygons contain it, and leaves no empty polygon or ring.',
  'every multipolygon, band and point', 'Universally quantified over a continuum of points.',
  ['mvt/clip.go:clip', 'mvt/clip.go:clipMultiPolygon', 'mvt/clip.go:LintMultiPolygon'])
p("C80",'ReadRawTile skips a byte after the geometry',
  'After the geometry field of a feature ReadRawTile continues one byte further than ReadTile; the two agree on written tiles (geometry last) but there is a tile with the type after the geometry that ReadTile reads correctly and ReadRawTile does not.',
  'every feature message with a field after its geometry', 'Only tiles of other producers order the fields this way.',
  ['mvt/read_tile.go:ReadRawTile', 'mvt/read_tile.go:ReadTile'])
p("C81",'A layer ending with its name swallows the next layer as a key',
  "In the Mapbox dialect, when a layer's last field is its name, NewTile reads past the layer's end: the whole message of the following layer is appended to its key table (the following layer itself is still read correctly).",
  'every layer name and every following written layer', "Needs a tile whose first layer has another field order than the writer's.",
  ['mvt/read_layer.go:NewLayer'])
p("C82",'Values of other producers are misread',
  "A value message carrying the signed field is returned as the raw unsigned varint (not zig-zag decoded), and a value message starting with an unknown field adds nothing to the layer's value table, so later value indexes shift.",
  'every value message of that shape at every position', "The repository's own writer never emits these fields.",
  ['mvt/read_layer.go:NewLayer', 'mvt/read_tile.go:ReadTile'])
p("C83",'Property tags resolve by last assignment',
  "Reading a feature's tags fails exactly when their number is odd; otherwise every key has the value of the last tag pair with that key, and an index outside the key or value table stands for the empty string.",
  'every pair of tables and every tag list', 'Quantifies over malformed tag lists.',
  ['mvt/read_feature_lazy.go:Feature'])
p("C84",'The last layer of a name wins',
  "For a tile of written layers in which names may repeat, NewTile's layer map holds for each name exactly the last layer written under it, while TileNames lists every one.",
  'every list of written layers', 'Needs tiles with repeated layer names.',
  ['mvt/read_tile.go:NewTile', 'mvt/read_layer.go:NewLayer'])
p("C85",'Drawing assumes a margin of three',
  "DrawGlyph returns the first (width+6)*(height+6) bitmap bytes row by row and panics when there are fewer; for a glyph built with margin b it panics exactly when b < 3 and shows the glyph's own bitmap exactly when b = 3.",
  'every glyph', INF,
  ['font/utils.go:DrawGlyph', 'font/sdf_builder.go:Glyph'])
p("C86",'The smoothing ramp starts at its second edge',
  'In exact arithmetic alpha(136,168,x) is 0 for every x up to 168 and x from 200 on, monotone and never above x in between, so the first edge has no effect; fully opaque or transparent glyphs are drawn with every outside pixel invisible and every inside pixel unchanged.',
  'every byte value; every two-level image of at least 2x2 pixels', INF,
  ['font/utils.go:alpha', 'font/utils.go:DrawGlyph', 'font/sdf_builder.go:CalcSDF'])
p("C87",'Glyph builder options',
  'NewSDFBuilder uses for font size and margin the last non-zero value among the options, 64 and 3 when there is none.',
  'every list of options', INF,
  ['font/sdf_builder.go:NewSDFBuilder', 'font/sdf_builder.go:Init'])
p("C88",'Elevation pictures',
  'Encoding an even-sized square grid of heights as a picture, loading it and reading it back loses less than 0.1 m per height (transposed read order); saving and loading a tile with opaque pixels keeps every inner elevation; loading keeps a colour byte exactly if the pixel is opaque or the byte is zero; a non-square picture is an error and an odd-sized one yields neither tile nor error.',
  'every grid, tile and picture', INF,
  ['raster/raster.go:LoadDEMDataWithStream', 'raster/raster.go:Save', 'raster/raster.go:DemEncode'])
p("C89",'Elevation packing in binary64',
  'In IEEE binary64 packing any double in [-10000, 1667721.5] is within 0.1 m (plus 1e-9) below it, reading any pixel is within 1e-8 of its exact elevation, and packing what was read gives the same 24-bit number or one less; both happen, so repeated read and write drifts downwards.',
  'every double in range; every byte triple', INF,
  ['raster/raster.go:MapboxPacker.Pack', 'raster/raster.go:Get'])
p("C90",'Colour space conversion',
  'In exact arithmetic the HSL and HSV colours made from any RGB colour are legal; converting the HSL colour back to RGB returns the largest and the smallest channel exactly and keeps the third between them, so greys and colours with two equal channels survive, but others such as (255,68,0) do not.',
  'every RGB colour', 'The third channel depends on an arc cosine; whether it survives cannot be seen from a few colours, and legality is a claim about all 2^24 of them in real arithmetic.',
  ['style/colorextra/hsl.go:NewHSLFromRGB', 'style/colorextra/hue.go:getHue', 'style/colorextra/hsv.go:NewHSVFromRGB', 'style/colorextra/hsl.go:RGBA'])
p("C91",'Colour strings',
  "A non-empty string not starting with '#' is read as the leftmost hsl(), else hsla(), else rgb(), else rgba() text in it, with arbitrary white space, and is an error if there is none or a number is out of range; text around a colour is ignored. The opacity byte is the nearest multiple of 1/256 less one, except that opacities below 1/512 become fully opaque.",
  'every string', INF,
  ['style/colors.go:strToColor', 'style/colors.go:getRGBAColor', 'style/colors.go:getHSLAColor', 'style/colors.go:getRGBColor', 'style/colors.go:getHSLColor'])
p("C92",'Authenticated query strings',
  "Encoding a set of query parameters and parsing it back gives every key its values in order, for arbitrary bytes; addAuthentication adds the access token after whatever the query already had and keeps every other parameter; the result does not depend on the map's iteration order. Applying it twice sends the token twice.",
  'every parameter set, query and token of bytes', INF,
  ['client/client.go:addAuthentication'])
p("C93",'Request paths',
  "For a user and ids that are ordinary path segments the requests go to styles/v1/user, tilesets/v1/user, styles/v1/user/id (with /draft for a draft) and v4/id,id,...,id.json, and different users, ids or draft flags give different style paths; an id with dot-dot segments reaches another user's style, and an empty id the listing.",
  'every pair of segments', INF,
  ['client/client.go:GetStyle', 'client/client.go:GetTileJSON', 'client/client.go:ListStyles', 'client/client.go:ListTilesets'])
p("C94",'Clipping down to a zoom fills the right tiles',
  'For a non-empty line or polygon feature whose box lies on the map and first fits in one tile above the requested zoom, ClipFeature ends after exactly that many rounds whatever order the map is visited in; the result holds each reachable tile once, every entry is at the zoom (with keep_parents: at most the zoom), under the first tile, non-empty and within its tile. A feature smaller than one tile of the zoom also leaves its deeper first tile in the map; a feature whose points coincide goes to tile 0/0 wherever it is; a MultiLineString gives every tile under the first an entry without geometry.',
  'every feature on the map, target zoom and visiting order', INF,
  ['mvt/clip.go:ClipFeature', 'mvt/clip.go:ClipDownTile', 'mvt/clip.go:GetFirstZoom', 'mvt/clip.go:makefeature'])
p("C95",'Clipping down to a zoom keeps membership',
  "Inside every tile of the requested zoom under the first tile, a point is inside the clipped polygon of that tile exactly when it is inside the original (no entry means not inside), as long as each cut sees rings with equal or clearly different ends and a polygon taken for the whole tile is the whole tile. A four-point ring whose box is the tile's is taken for the tile even if it is a triangle: points outside it come out inside.",
  'every polygon, zoom, tile and point strictly inside the tile', INF,
  ['mvt/clip.go:ClipFeature', 'mvt/clip.go:ClipDownTile', 'mvt/clip.go:DeltaBounds'])
p("C96",'Walking a layer visits every feature once',
  'For an opened layer, the loop `for layer.Next() { layer.Feature() }` makes exactly one call per remaining feature, in order, and stops, also when some features are malformed: a call that panics inside comes back as an error and still advances by one. Afterwards Next is false, a further call to Feature gives an error and Next stays false; Reset starts again at the first feature. For a written layer the walk gives the written features in order without errors. The one exception is a call that never returns: a tile of 21 bytes whose only feature has a geometry of negative length opens without an error, and the walk over its layer never ends.',
  'every layer, position and buffer; every layer written by WriteLayer in either dialect', INF,
  ['mvt/read_layer.go:84-90 (Next, Reset)', 'mvt/read_feature_lazy.go:61-124 (Feature)'])
p("C97",'Geometries at a smaller scale',
  'LoadGeometryScaled(dim) gives the geometry LoadGeometry gives, of the same kind and with the same number of points in every part, each coordinate being the rounded quotient by dim. With a rounding to the nearest integer and dim > 0 scaling back is off by at most dim/2, and dim = 1 changes nothing. Rings of polygons stay closed. It gives the empty geometry exactly on an error or, without an error, for a geometry type other than 1, 2, 3. Points are not thinned: a unit square at dim 10 becomes a ring of five equal points.',
  'every feature, buffer, dim and rounding function', INF,
  ['mvt/read_feature_lazy.go:298-343 (convertpt, convertln, convertlns, ConvertGeometry, LoadGeometryScaled)'])
p("C98",'UTF grids: opening and reading',
  'NewDB finds grids exactly when the five grid tables exist and grid_utfgrid has a row, and then fails exactly when the format of that row is not recognised. ReadGrid gives an error without grids or at a position SQLite cannot store, nil where there is no grid, and the stored bytes where a grid has no keys. Where it has keys the result is the recompressed grid in which "data" holds, for each key name, the last key row\'s JSON object and every other member is that of the stored grid. It panics exactly when a grid with keys decompresses to something other than a JSON object, for instance null or a truncated text.',
  'every database content, map iteration order and compression or JSON codec', INF,
  ['mbtiles/mbtiles.go:192-214 (NewDB, UTF grids)', 'mbtiles/mbtiles.go:290-369 (ReadGrid)'])
p("C99",'Layer types as JSON',
  'A LayerType that encoding/json can address is written as its name, "baselayer" or "overlay", and reads back as itself; any other value panics in String. Decoding accepts exactly these two strings (agreeing with the metadata table\'s stringToLayerType) and gives an error for everything else, null included, without panicking. Because MarshalJSON has a pointer receiver, a LayerType inside a Metadata passed by value is written as a number, which cannot be read back.',
  'every layer type value and JSON document', INF,
  ['mbtiles/mbtiles.go:106-134 (LayerType String, MarshalJSON, UnmarshalJSON)'])
p("C100",'Numbers and zoom functions in styles',
  'A paint or layout number is read from a JSON number or from an object; an object without clashing keys reads as a function exactly when its base is a number or missing, its type a string or missing and each of its stops an array that starts with two numbers, and then the function has that base and those stops in order. Any other kind of value panics, and an object panics exactly when the first bad stop is null or an array (another kind of stop is an error). Evaluating panics exactly when there are no stops, and is 0 before the first stop and for a missing property. The type of a function is ignored: an interval function is interpolated.',
  'every JSON document without keys that clash up to case, every zoom', INF,
  ['style/numeric_function.go:9-47 (NumberOrFunctionWrapperType)', 'style/numeric_stop_type.go:10-23 (UnmarshalJSON)', 'style/numeric_function.go:55-89 (NumericFunctionType)'])
p("C101",'Colours and colour functions in styles',
  'A paint colour is read from a string, exactly as strToColor reads it, or from an object whose base is a number or missing and whose stops are null or arrays that start with a number and a readable colour; any other kind of value panics, and an object panics exactly when its first bad stop is an array that does not start with a number and a string (or whose colour panics). Null stops are kept as nil pointers: evaluation agrees with the stops before the nil one at zooms below one of them and panics at the zooms that reach it.',
  'every JSON document without keys that clash up to case, every zoom', INF,
  ['style/colors.go:21-58 (ColorType)', 'style/color_function.go:13-82 (colorStop, ColorStopsType)'])
p("C102",'Background of a parsed style',
  'When a style document decodes, Parse shows white if there are no layers or the first one has an ID other than "background", and else the background-color of the first layer\'s paint at zoom 0 (no colour when it is missing), and GetStyleID is the document\'s id; it panics exactly when the first layer is null, the background layer has no paint, or its colour function panics at zoom 0, and never gives an error. A first layer of type background with another ID is ignored.',
  'every decodable style document without keys that clash up to case', INF,
  ['style/style.go:19-38 (GetStyleID, GetBackground, calculateBackgroundColor)', 'style/style.go:62-76 (Parse)'])
p("C103",'When parsing a style fails',
  'Decoding a style visits the parts of the document in order: the first part whose UnmarshalJSON fails decides between an error and a panic, whatever else is wrong; only if none fails is a value of the wrong kind anywhere an error; and Parse succeeds exactly when neither happens and the background can be computed. Hence a style with a light colour never parses, one with an expression for a paint colour or number never parses, and such a correct style panics instead of returning an error.',
  'every style document without keys that clash up to case', 'The claim relates the positions of all failing parts of arbitrary nested documents; tests try a few styles.',
  ['style/style.go:62-76 (Parse)', 'style/layer.go:23-58 (Layer, Light)', 'style/filter.go:169-177 (FilterContainer)', 'style/paint.go:3-21 (Paint)'])
p("C104",'What a parsed style holds',
  "A decoded style has one layer per element of the document's layers, in order, nil for null; each layer's strings, zoom limits, filter, and the colours and numbers of its paint and layout are those of the member with that name (up to case), nil or empty where the member is missing or null. Validate accepts exactly version 8.",
  'every decodable style document without keys that clash up to case', INF,
  ['style/style.go:45-60 (Style)', 'style/style.go:78-85 (Validate)', 'style/layer.go:23-34 (Layer)', 'style/layout.go:3-21 (Layout)', 'style/paint.go:3-21 (Paint)'])
p("C105",'Texture sizes at another pixel ratio',
  'ScaleTo keeps ID and name, sets the ratio and turns each side w into w*new/old rounded down, computed in float64: the result is that number, or one less when new*w/old is a whole number; it is always that number when old divides new, when old is a power of two, and when both ratios are at most 4 (so scaling a 1x texture up and back is the identity there); 49 pixels at 49x become 0 at 1x and 45 pixels at 5x become 62 at 7x; a texture with ratio 0 gets sides the language leaves open.',
  'all sides and ratios up to 2^30 with product at most 2^50, in IEEE binary64', 'Rounding errors depend on the particular pair of numbers, sampled tests with ratios 1 and 2 never show them',
  ['sprite/sprite.go:128-138'])
p("C106",'Great-circle distance',
  "Distance is the Earth's radius times the angle at the centre between the two points given in degrees of longitude and latitude; so it is a metric on the sphere (zero exactly for the same point of the sphere, symmetric, triangle inequality), is at most half the circumference, and panics exactly when a point has fewer than two coordinates.",
  'all pairs and triples of points, exact arithmetic', INF,
  ['tile_cover/line_corner_case.go:9-24'])
p("C107",'Features made from clipped tiles carry their tile and copies of the properties',
  'NewFeatures returns one feature per entry of the tile map, each with only the geometry member that its type names, and a property map of its own (no two features share one, and the map passed in is left unchanged) that holds the given properties with TILEID overwritten by the text of the tile, from which Strtile recovers the tile, and COLORKEY overwritten by white. NewFeature does the same for one geometry without TILEID, keeping the geometry whole.',
  'for all tile maps in every iteration order, all geometries and all property maps', 'Aliasing of maps and the precedence of TILEID/COLORKEY over equal keys only show for particular inputs; the theorem covers every map and iteration order.',
  ['mvt/clip.go:518-557 NewFeature, NewFeatures', 'tileid/tileid.go:Tilestr'])
p("C108",'Feature files read back what was written, or panic',
  "ReadFeatures yields the features the GeoJSON library parses from the content of the file (a missing file counts as empty content) and panics exactly when that content does not parse; writing features with MakeFeatures and reading them returns them when the library's codec does, leaves other files alone, and a failed encoding leaves an emptied file behind.",
  'for all file systems, names, feature lists and codecs', 'The error values are dropped in the code, so the failing paths only show with missing or malformed files; the theorem covers every file content and codec.',
  ['mvt/clip.go:503-516 ReadFeatures, MakeFeatures'])
p("C109",'Layer data survive their JSON document',
  'Encoding LayerData (vector layers and tile statistics) to JSON and decoding it returns the same layer data except that a pointer to a nil layer list and empty attribute lists come back nil; it is the identity exactly for the data without those. A document from elsewhere is decoded exactly when its known members, matched without regard to letter case, have the expected kinds at every depth (integers within int64), and is refused with an error otherwise, never a panic. Metadata holding such layer data go unchanged through ToMap and GetMetadata.',
  'for all layer data with int64 counts, and for all JSON documents', INF,
  ['mbtiles/metadata.go:96-127 LayerData, VectorLayer, TileStats, Layer, Attribute', 'mbtiles/metadata.go:48-94 ToMap', 'mbtiles/mbtiles.go:GetMetadata'])
p("C110",'TileJSON documents survive encoding, and foreign ones are read exactly when well kinded',
  'Encoding a TileJSON and decoding it gives the same document except that empty feature_tags and empty vector_layers come back nil (identity exactly without them). Any document decodes exactly when its known members have the right kinds (bounds/center: arrays whose first 4/3 elements are numbers, zooms in uint64, tileSize in uint32), never panics, and the decoded fields are the values of the members; null and missing members give zero values, short arrays are padded with zeros and long arrays cut.',
  'for all TileJSON values in the range of their Go types, and for all JSON documents', INF,
  ['tilejson/tilejson.go:57-118 TileJSON, VectorLayer, NewTileBounds, NewTileCenter'])
p("C111",'GetTileJSON and GetStyle decide by the body alone',
  'GetTileJSON sends exactly one request, to https://api.mapbox.com/v4/<ids joined by comma>.json?access_token=<escaped token>, and GetStyle to /styles/v1/<user>/<id>[/draft] likewise, and return the decoded body whatever the status code is: failing exactly when nothing comes back, the body is not JSON or it does not decode. So an error message body gives a zero TileJSON without an error, and a style with no layers that style validation refuses. Pages of ListStyles and ListTilesets decode exactly when they are arrays of objects with members of the right kinds, including times.',
  'for all transports, tokens, identifiers with plain characters, statuses and bodies', 'Status handling only shows against a failing server; the theorem covers every response.',
  ['client/client.go:42-62 do', 'client/client.go:118-134 GetStyle', 'client/client.go:174-195 GetTileJSON', 'client/types.go:5-12 ListStyle', 'tilejson/tilejson.go:67-78 Tileset'])
p("C112",'Language files and font coverage',
  "NewFontCoverage reads a document exactly when it is an array of null or language objects with code points within uint32, giving one language per element with the members' values (null elements give nil languages), and never panics. Coverage of fonts fails exactly when one does not parse, panics exactly when all parse and some language is nil, and otherwise equals CoverageTTFS of the parsed fonts: one report per language, in order, with its name and id, the number of exemplar characters, how many of them some font has, and per font how many it is the first to have.",
  'for all documents, font byte strings, parsers and languages', INF,
  ['font/cover.go:25-48 LanguageCoverage, CodePoints, LanguageCodePoints', 'font/cover.go:50-82 coverage', 'font/cover.go:84-108 Coverage, CoverageTTFS', 'font/cover.go:110-121 NewFontCoverage'])
p("C113",'Life of a tileset file',
  "CreateDB refuses a file that already has one of its tables and leaves that file's tiles and metadata alone; otherwise the file has both tables and the call returns even when writing the metadata fails. After any sequence of StoreTile and UpdateMetadata calls on a new file, ReadTile returns what was stored last for each address, other files are unchanged, reopening takes the format of one of the held tiles (gzip counting as pbf) and fails when there is none, whatever format CreateDB was given, and GetMetadata returns what the last completed update stored, with zooms from the held tiles when its maximum zoom is zero. Time stamps are the modification time rounded to the second.",
  'All files, formats, metadata, sequences of calls, orders in which SQLite returns rows and in which Go iterates maps', INF,
  ['mbtiles/mbtiles.go:161-266 NewDB, CreateDB', 'mbtiles/mbtiles.go:268-288 StoreTile, ReadTile', 'mbtiles/mbtiles.go:370-478 GetMetadata, UpdateMetadata', 'mbtiles/mbtiles.go:480-506 accessors'])
p("C114",'Geographic round trip of layers',
  'Features with longitude/latitude geometries written with WriteLayer (or NewLayer, AddFeature, Flush) and read back with NewTile/ToGeoJSON or ReadTile have the id (for ReadTile the latest id), the properties and the geometry they were written with, every position moved to the nearest grid point of the tile at the extent of the layer (at most half a unit, 180/(extent*2^z) degrees of longitude), repeated neighbours once, rings closed and wound (the area on the grid kept, for outer rings not negative, for holes not positive) and a MultiX with one member as X; with ExtentBool positions outside are moved to the border, otherwise they are kept. Polygons need no area on the grid, except those of a multipolygon after its first. Writing what was read with ExtentBool and reading it again changes nothing, if outer rings have area on the grid; one without is turned round each time. A point at the first grid point of the tile is written and makes ToGeoJSON fail.',
  'All tiles on the rows of the map, extents in (0, 2^31), positions within the Mercator square and 2^30 (polygons 23170) units, all properties, ids and layer lists with distinct names (ReadTile: any names), both dialects.', INF,
  ['mvt/write_layer.go:42-80', 'mvt/write_layer.go:162-216', 'mvt/write_geometry.go:61-77', 'mvt/write_geometry.go:277-304', 'mvt/read_feature_lazy.go:50-59', 'mvt/read_feature_lazy.go:253-296', 'mvt/read_tile.go:59-311'])
p("C115",'Closing rings works in the memory of the caller',
  "Closing the rings of a polygon (the encoder does it to the polygon it is given, by appending the first point to the caller's slices) panics exactly when a ring is empty, whatever the slices share; for rings whose capacities do not overlap each ring afterwards holds its old points followed by the first one unless it was closed, every slice with no point in the spare room behind a ring is unchanged - the caller's own slices included -, and the commands written for polygons and multipolygons, in floats or ints, are those of the pure encoder on the old points; closing twice changes nothing if points equal themselves and adds a point each time if the first one is NaN; an open ring cut from an array without its own capacity overwrites the first point of the ring that follows it.",
  'For all memories, slices, growth policies of append and point types; multipolygons of any shape.', INF,
  ['mvt/write_geometry.go:25-59', 'mvt/write_geometry.go:241-275', 'mvt/write_geometry.go:345-357'])
p("C116",'HSL and HSV colours in the arithmetic the code uses',
  'Counting every rounding of binary64 arithmetic: NewHSLColor and NewHSVColor accept a colour exactly when each of the three numbers is NaN or lies in its range (infinities are refused, NaN is let through). NewHSLFromRGB and NewHSVFromRGB of any bytes give finite numbers in range, with the hue within 1/5000 of a degree of the exact one. RGBA of a legal HSL colour gives channels 257 times a byte that is within half a step (and a ten-billionth) of the CSS formula. From bytes to HSL and back the largest and the smallest channel and alpha are exact and the third lies between them; a colour with two equal channels survives, (255, 68, 0) does not.',
  'For every binary64 hue, saturation and lightness, every 8-bit red, green, blue and alpha, and every arc cosine that is finite, between 0 and the constant pi and within 1e-8 of the exact one.', 'The statement is about sixteen million colours and every binary64 triple; a test samples them with one arc cosine.',
  ['style/colorextra/hue.go:8-43', 'style/colorextra/hsl.go', 'style/colorextra/hsv.go'])
p("C117",'Signed distance fields in binary64',
  'For images of 2 to 1024 pixels a side, any 16-bit alphas, a finite radius of at least 1 and a cutoff of at most 1000 in absolute value, CalcSDF computed in binary64 does not panic and returns one byte per pixel. With mo and mi the exact minima of squared distance plus outer and inner cost, the byte is within 1/2 + 1/16 of 255 - 255*((sqrt mo - sqrt mi)/radius + cutoff) clamped to 0..255, and within 1/2 + 1/40 unless all pixels are clear or all are opaque. The distance transform alone is within 1/30000 of the exact distance, and is the correctly rounded exact distance when all sources cost 0, although the intermediate sums with 1e20 lose up to 8192. Opaque pixels of two-level images stay at 223 or more, clear ones at 159 or less. Images one pixel wide panic.',
  'all image sizes up to 1024, all alphas, all finite radii >= 1 and cutoffs up to 1000', 'The error comes from the order of floating-point operations with the 1e20 mark and from near-ties in the lower envelope; tests compare a few glyphs with tolerance.',
  ['font/sdf_builder.go:143-200', 'font/sdf_builder.go:202-226', 'font/sdf_builder.go:229-268'])
p("C118",'Tiles in floating point',
  'In binary64, with any library functions accurate to about 1e-13: the longitudes of Bounds are exact and the latitudes within 1e-11 degrees of the true edges of the tile; Tile sends every point at least 3e-9 degrees inside a tile (on the western edge included) to that tile, and any point of a tile to it or one of its eastern, northern and southern neighbours; the Center of a tile is in the tile, and Parent halves the coordinates, so Parent of every child of a tile is the tile, down to zoom 31.',
  'every tile on the map of zoom at most 44 (36 for neighbours, 31 for Center and Parent), every finite longitude and latitude, every implementation of atan, sinh, tan, cos and log within the stated accuracy', INF,
  ['tileid/tileid.go:36-58', 'tileid/tileid.go:93-103'])
p("C119",'Thinning a tile keeps one point per cell and only visible shapes',
  'Filtering any sequence of features with a new Reduce_Config of a tile keeps a point or multipoint exactly when no earlier point or multipoint of the sequence lies in the same cell, eight zoom levels further down; a kept multipoint becomes the point at the mean of its points, everything else is left as it is; a line or area is kept exactly when its bounding box is wider or higher than 1/200 of the tile, and other types are dropped. So at most 65536 point features inside the tile are kept. A run panics exactly when a point lacks a coordinate, and a switched-off configuration keeps everything.',
  'every tile, every sequence of features, every bounding-box function', INF,
  ['mvt/feature_reduce.go:NewReduceConfig', 'mvt/feature_reduce.go:Filter'])
p("C120",'Grid points survive longitude/latitude in floating point',
  "In binary64, with library functions accurate to about 1e-13: reading a grid point of a tile to longitude/latitude (ToGeoJSON) and writing it into the same tile again (SinglePoint with a cursor of that tile and extent) gives the same grid point, for points up to a tile width outside the tile and inside the map's rows, as long as extent * 2^zoom <= 2^36. Rows beyond the northern edge of the map come back as the edge.",
  'every tile on the map, extent, grid point and library in those bounds', INF,
  ['mvt/write_geometry.go:ConvertPoint', 'mvt/write_geometry.go:ConvertCursor', 'mvt/write_geometry.go:SinglePoint', 'mvt/read_feature_lazy.go:Project', 'mvt/read_feature_lazy.go:ToGeoJSON'])
p("C121",'Clipping lines in floating point',
  'In binary64, for finite coordinates of size at most 2^k: clipLine cuts a line into the same pieces as exact arithmetic would, equal on the clipped axis and within 2^(k-49) on the other; so the result is exactly inside the band and within 2^(k-49) of the part of the line inside it, in both directions. Rings agree up to their closing point. After ClipTile the latitudes of a line are exactly within the tile and the longitudes within 2^(k-48) of it, but not always inside: a line within longitudes -180..180 can be clipped to a point at 180 + 2^-45.',
  'every line, band, axis and size -900 <= k <= 90', INF,
  ['mvt/clip.go:IntersectX', 'mvt/clip.go:IntersectY', 'mvt/clip.go:clipLine', 'mvt/clip.go:ClipTile'])
p("C122",'Line simplification keeps its promise in binary64 arithmetic',
  'When Simplify runs on float64 coordinates of size up to 2^k, it returns without panic and moves no vertex; every vertex it drops lies within the squared tolerance plus 2^(2k-44) of the segment between the nearest kept (or end) vertices around it, and every vertex it keeps lies further than the squared tolerance less 2^(2k-44) from a segment between kept (or end) vertices on either side of it. In exact arithmetic the second half holds with no allowance; in float64 the allowance cannot be left out.',
  'Every finite tolerance, every k from -350 to 40, every array of finite coordinates of size at most 2^k that are zero or at least 2^-400, every number of vertices; exact arithmetic: every real array.', INF,
  ['mvt/simplify.go:GetSqSegDist', 'mvt/simplify.go:Simplify'])
p("C123",'Geometry decoding and ring orientation are exact in binary64 arithmetic',
  "LoadGeometry on float64 accumulators returns the integers that exact arithmetic gives, with the same grouping of rings into polygons, as long as the commands are 32-bit words, there are at most 2^22 of them, and (for polygons) the ring coordinates are small enough that the area sums stay below 2^53 (for example below 2^15 in a geometry of 2^21 words). The encoder's orientation tests agree with integer arithmetic for rings of up to 2^22 points of any int32 coordinates. For huge coordinates the decoder is wrong: there are commands whose second ring has twice the area 1 and starts a polygon, but the float64 sum is -256 and it becomes a hole.",
  'Every command list and geometry type, every ring; every float64 rounding.', INF,
  ['mvt/read_feature_lazy.go:LoadGeometry', 'mvt/read_feature_lazy.go:SignedArea', 'mvt/read_feature_lazy.go:DeltaDim', 'mvt/write_geometry.go:SignedArea2', 'mvt/write_geometry.go:assert_winding_order'])
p("C124",'Point in polygon in binary64 arithmetic',
  "Pip on float64 coordinates of size up to 2^k answers the even-odd rule exactly for the point and rings given, unless some slanted edge passes within 2^(k-49) of the point at the point's height. Whatever the numbers, NaN and infinities included, it panics exactly when a ring is empty. The exception cannot be left out: for the triangle (0,0), (13,6), (0,6) and the point (13/3 rounded to float64, 2), which is inside, it answers no.",
  'Every list of rings and every point with finite coordinates of size at most 2^k that are zero or at least 2^-400, every k from -350 to 40; panics: every float64.', INF,
  ['tile_cover/tile_cover.go:Pip'])
p("C125",'Numeric zoom functions in binary64 arithmetic',
  "For float64 stops with values of size up to 2^k, GetValueAtZoomLevel of a numeric function: panics exactly when there are no stops; with base 1 it is within 2^(k-49) of the exact value at every zoom and never falls as the zoom rises between two stops; at a stop it is exactly that stop's value whenever the power over the next interval is not 1; for any base whose computed powers are ordered it lies between the lower value and the lower value plus the distance to the next, with 2^(k-50) to spare at the top. That allowance is needed (stops 0.3 at zoom -4 and 0.9 at zoom 1 give more than 0.9 just below zoom 1), and when the power rounds to 1 the value at the stop is NaN.",
  'Every list of stops, every zoom, every k from -900 to 90; math.Pow arbitrary within the stated conditions.', INF,
  ['style/function.go:getExponentialPercentage', 'style/numeric_function.go:GetValueAtZoomLevel', 'style/numeric_function.go:getNumericValueBetweenStops'])
p("C126",'Colour zoom functions in binary64 arithmetic',
  "Between two RGBA stops in float64 every channel stays a byte between the two stops' channels, for base 1 and for any base whose computed powers are ordered; with base 1 it differs from the exact channel by at most 1 and equals the stop's channel at a stop. Panics are those of exact arithmetic. A difference of 1 does occur: seven tenths of the way from 0 to 90 the code gives 62.",
  'Every list of stops with finite zooms of size up to 2^90, every zoom, every pair of RGBA colours.', INF,
  ['style/color_function.go:GetValueAtZoomLevel', 'style/color_function.go:getColorValueBetweenStops', 'style/function.go:getValueThroughStop'])
p("C127",'Dotted tile names and geohash names',
  "ToString gives different tiles different names, but no parser of the package reads them back: TileFromString panics on every such name unless X and Y are both negative, in which case it returns tile 0/0/0, and Strtile always panics. Tile_Geohash names the tile that Tile finds, in Tilestr's form, and for points on the map at zooms 0 to 62 Strtile gives exactly that tile back.",
  'for all int64 X, Y and uint64 Z; for all points', INF,
  ['tileid/tileid.go:ToString', 'tileid/tileid.go:TileFromString', 'tileid/tileid.go:Tile_Geohash', 'tileid/tileid.go:Strtile'])
p("C128",'Style file names as text',
  'MarshalText never fails; UnmarshalText of its output yields the same value exactly when the value is in the form ParseStyleFile produces (non-empty lower-case type without @, lower-case extension, ratio at least 1). UnmarshalText never panics, fails exactly on text without the required shape, leaves the receiver unchanged when it fails, and otherwise the result does not depend on the receiver.',
  'for all style files and all ASCII texts', INF,
  ['sprite/style_file.go:UnmarshalText', 'sprite/style_file.go:MarshalText'])
p("C129",'Clipping polygons in floating point',
  "In the binary64 arithmetic the code uses, clipping a polygon with finite coordinates up to 2^k to a band keeps even-odd membership for every point strictly inside the band that is more than 2^(k-49) away from the outline in some coordinate, and the result has no empty rings and no infinities. ClipTile does the same for points at least 2^(k-48) inside the tile's sides and more than 2^(k-47) away from the outline, or panics, and then the point was outside. Right next to the outline membership can change.",
  'for all polygons with rings whose ends agree or are further apart than twice the repair tolerance, all bands, all points', INF,
  ['mvt/clip.go:clipLine', 'mvt/clip.go:clipLines', 'mvt/clip.go:LintPolygon', 'mvt/clip.go:clip', 'mvt/clip.go:ClipTile'])
p("C130",'Feature ends and the order of evaluation',
  "The three readers compute a feature's end as Buf.Pos + Buf.ReadVarint(), and Go leaves open whether Pos is read before or after the call moves it. For tiles of layers written by this library and smaller than 2^28 bytes, whose geometries have at least one point, Feature gives the written feature back in either order, and ReadTile and ReadRawTile give the same result in either order if all geometries are of the six known types. For a feature of 128 bytes or more from another program whose last field is short, such as the type, and for a geometry of another type after a point, the two orders differ.",
  'for all lists of written layers, both dialects, both orders', INF,
  ['mvt/read_feature_lazy.go:Layer.Feature', 'mvt/read_tile.go:ReadTile', 'mvt/read_tile.go:ReadRawTile'])
p("C131",'The geometry decoder requests room for exactly the points it returns for written geometries, but a four-number list can request 2^29 slots',
  'For lines and polygons written by the encoders the slot counts the decoder allocates equal the numbers of points of the lines and rings it returns. For any command list each request is at most 2^29 slots, all requests together exceed half the number of commands by at most 2^29, and every accepted line has at least room for its points. A bound by the input size is false: for every n below 2^29 the list [9, 0, 0, 8n+2] requests n+1 slots and decodes to one point.',
  'all geometries in the coordinate domain of C12 and C13; all uint32 command lists; all n below 2^29', INF,
  ['mvt/read_feature_lazy.go:LoadGeometry', 'mvt/read_tile.go:ReadTile', 'mvt/write_geometry.go:MakeMultiLineFloat', 'mvt/write_geometry.go:MakeMultiPolygonFloat'])
p("C132",'Writing a geometry that was read gives the same commands, in float64',
  'Let a geometry be written into a layer of a tile on the map (extent e, e * 2^z up to 2^36), with its grid points within one tile of the tile, on the map, and in the tile if the layer clamps: one point other than the corner, lines, or rings with coordinates up to 23170 whose outer rings have an area. Then the commands are readable, and if they are at most 2^21 words, reading them to longitude/latitude and writing the result again gives the very same commands and geometry type, all in binary64 with any library functions of a stated accuracy. A flat outer ring is not like this: it turns round each time it is written.',
  'forall libm of the accuracy of C120, tiles, extents, both clamping modes, geometries', INF,
  ['mvt/read_feature_lazy.go:LoadGeometry', 'mvt/read_feature_lazy.go:ToGeoJSON', 'mvt/read_feature_lazy.go:Project', 'mvt/write_geometry.go:MakeMultiLineFloat', 'mvt/write_geometry.go:MakeMultiPolygonFloat', 'mvt/write_geometry.go:SinglePoint'])
p("C133",'Terrarium elevations in binary64',
  'In float64 the Terrarium reading of every pixel is exact. Packing any finite height h with -32768 <= h < 32768 - 2^-38 gives a legal opaque pixel whose blue channel is below 25, and reading it back is off by more than -1 - 2^-37 and less than 25/256 + 2^-37. A height on the 1/256 grid of the format packs exactly as in exact arithmetic, so it survives iff n mod 256 = n mod 25. At 32768 - 2^-38 the sum rounds up to 65536 and the height wraps to the bottom of the range.',
  'all finite float64 heights, all pixels', 'The error occurs at heights that differ from harmless ones by one unit in the last place, and the bound ranges over all of them.',
  ['raster/raster.go:Pack', 'raster/raster.go:Get'])
p("C134",'Clipping polygons to tiles in floating point',
  'Let math functions be accurate to 4 units in the last place as in C118 and let coordinates be finite and between -255 and 255. A point at least 5e-7 degrees inside a tile (zoom at most 44) and at least 5e-7 degrees from the outline of a polygon is in the polygon float64 ClipTile returns iff it is in the original; if ClipTile panics, no such point was in the polygon. The same holds for each child of ClipDownTile when the polygon is not taken for the whole tile, with no repeated children and none outside the tile; if it is taken for the whole tile, every child contains all its points further than 1e-10 degrees from its edges. It is taken for the whole tile only if it has one ring of four or five vertices whose box is that of the tile up to 1.11e-7 degrees at each edge, and always if it is so up to 9.8e-8 degrees. A multipolygon cut keeps, at such points, the number of its polygons that contain them, and returns no empty rings. Without the margin the statement fails: a triangle with a side of 6e-8 degrees loses an interior point.',
  'all tiles, all polygons, all points, all libm implementations within the contract', INF,
  ['mvt/clip.go:ClipTile', 'mvt/clip.go:ClipDownTile', 'mvt/clip.go:LintPolygon', 'mvt/clip.go:clip'])
p("C135",'Clipping a polygon down to a zoom in floating point',
  'Let math functions be as accurate as in C118, coordinates finite and at most 254, the box inside the map. The float64 first zoom gives a tile of the map that holds the box up to 3e-9 degrees, and no tile one zoom deeper has all four corners. ClipFeature without parents either ends for every map order, with distinct tiles of the zoom asked for under the first tile, each with a polygon without empty rings; or it never ends. If it ends, then at every point further than 5e-7 + 46e-8 times the number of zooms from the tile edges and from the outline, where polygons taken for whole tiles do cover their tile, the tile has a polygon with the same even-odd membership, or has none and the point was outside. If it never ends, all such points were outside. It can fail to end: a thin polygon 2^-60 degrees west of Greenwich from 1 to 24 degrees north is located east of the meridian, is clipped away, and the loop never ends.',
  'all polygons, all points, all map orders, all libm implementations within the contract', INF,
  ['mvt/clip.go:ClipFeature', 'mvt/clip.go:GetFirstZoom', 'mvt/clip.go:ClipDownTile', 'tileid/tileid.go:Tile'])
p("C136",'Layers round trip through longitude and latitude in float64',
  'With the mathematical library accurate to a few units in the last place, a tile of the map and an extent with at most 2^36 units around the map, a layer that WriteLayer (or NewLayer, AddFeature and Flush) writes from float64 longitudes and latitudes is read by NewTile, Feature and ToGeoJSON with the ids, the properties and the geometries of its features: every position is at the place of a grid point that is at most half a unit plus 5e-15 (columns) and 5.1e-12 (rows) of the circumference of the map away from where it was (or from where it was moved into the tile), equal positions go to equal grid points throughout the layer, repeated neighbours appear once, rings are closed and keep their area on the grid, which outer rings get as it is and holes negated (polygons after the first one need to have some); a point at the first grid point of the tile is written and cannot be read',
  'for all float64 positions on the square map less than a tile width from the tile, all tiles, extents, features and protocol variants, and all libraries with the stated accuracy', 'The error bound has to hold for every float64 position and every tile; the tests write and read one file',
  ['mvt/write_layer.go:WriteLayer', 'mvt/write_layer.go:NewLayer', 'mvt/read_feature_lazy.go:ToGeoJSON', 'mvt/write_geometry.go:SinglePoint', 'mvt/write_geometry.go:ConvertPoint'])
p("C137",'The cover of a line in binary64',
  'In binary64 arithmetic, with functions of package math accurate to 1e-13, for every line of the map up to zoom 28 GetTilesLine returns, in whatever order maps are iterated, no tile twice and the tile of every vertex; every tile returned is that of a computed point within 1e-11 degrees of the straight line through two consecutive vertices, overshooting them by at most 1.1e-7 degrees in one coordinate; every column a segment crosses (by 1e-11 degrees) is visited, and every row it crosses (by 1e-8 degrees) if it is higher than the tile of the first vertex. Rows are skipped when that tile is higher than the segment, a column is skipped when rounding moves an end past it, and a steep segment yields a tile 25 rows away from both ends.',
  'every non-empty line of finite coordinates on the map, zoom 0 to 28, map iteration order and sufficiently accurate math library', INF,
  ['tile_cover/tile_cover.go:GetTilesLine', 'tile_cover/line_corner_case.go:BetweenTiles', 'tile_cover/line_corner_case.go:ProduceVals', 'tile_cover/line_corner_case.go:Interpolate', 'tile_cover/line_corner_case.go:FillVals'])
p("C138",'The cover of a polygon in binary64',
  'In float64 arithmetic, with math functions accurate to 1e-13 and zero at zero, GetTilesPolygon at zooms 0 to 28 on a polygon of the map with a closed outer ring terminates without panic and returns no tile twice. It returns every tile of the map into which the box of the outer ring reaches by 3e-9 degrees and which has a vertex 3e-9 degrees inside it, or a corner inside the polygon by the even-odd rule with no edge within 1e-12 degrees of longitude and 1e-11 of latitude. Every tile it returns lies between outer vertices by row and column, and is the tile of a vertex, or holds the whole outer ring up to 1e-11 degrees, or has a corner that is inside the polygon unless an edge passes that close. Refuted: that it returns every tile the polygon meets; a triangle thinner than a tile loses the tiles its long edges cross.',
  'every polygon of float64 vertices (inner vertices within 256 degrees, nonzero coordinates at least 2^-400), number of rings and vertices, zoom 0..28, math library within the stated error', 'Tests sample a few polygons; whether a computed corner and a rounded edge intersection agree with the exact even-odd rule depends on every float64 bit of vertices and tile edges.',
  ['tile_cover/tile_cover.go:GetTilesPolygon', 'tile_cover/tile_cover.go:TilePolygon', 'tile_cover/tile_cover.go:RunPolygon', 'tile_cover/tile_cover.go:BoundingBoxPoints'])
p("C139",'Great-circle distances in float64',
  'In binary64 arithmetic, with sines and cosines within 1e-14 and an arc tangent within 1e-14, Distance of two points in degrees a mile or more apart and a mile or more short of opposite is finite and within a hundred-thousandth of a mile of the arc between them; nearer than a mile, up to the 89th parallels, it is within a 250th of a mile; the distance of a point to itself is 0; it is the same both ways; it panics exactly when a slice has fewer than two numbers. Without keeping short of opposite this is false: with exactly rounded sines and cosines Distance([0 8], [180 -8]) is NaN, because the square of half the chord rounds to more than 1 and its complement has no root.',
  'for all pairs of points in the float64 range of longitudes and latitudes, and every library of math functions within the stated tolerance', 'There are 2^256 pairs of points; a test samples a few and would have to hit an opposite pair whose rounding goes up to see the NaN.',
  ['tile_cover/line_corner_case.go:9-24'])
p("C140",'Splitting points by tile in float64',
  'In binary64 arithmetic PointClipAboutZoom splits a MultiPoint into one non-empty group per tile, in order, and the groups together are the points; with math functions within tolerance every point of a group is within 3e-9 degrees of the bounds of its tile and west of its eastern edge; PointClipAboutTile gives a feature exactly when the split by its zoom has an entry for the tile, and it is that entry, for points and for multi-points; splitting by the next zoom only divides the group of every tile among the four tiles below it, with no point changing hands, although neighbouring rounding errors differ. Without the margin it is false: a point west of a tile by 2^-60 degrees is put in it.',
  'for all lists of float64 points, all tiles and zooms up to 44, and every library of math functions within the stated tolerance', 'The refinement between zooms has to hold for every pair of float64 numbers next to every tile edge; a test can only sample them.',
  ['mvt/clip.go:261-293 (PointClipAboutTile)', 'mvt/clip.go:295-325 (PointClipAboutZoom)', 'tileid/tileid.go:52-58 (Tile)', 'tileid/tileid.go:150-152 (IsEqual)'])
p("C141",'Thinning a tile in float64',
  'With coordinates as float64, Filter keeps the first point feature of each of the 256 x 256 cells of a tile and no other, at most 65536 in all. A kept MultiPoint becomes the mean of its points: within n/10^13 degrees of the true mean for n points, but not always between them (three equal points may be moved). Lines and areas over half a percent of the tile wide or high by 1e-12 degrees are kept, those 1e-12 degrees short of it in both directions are dropped. Only a point with fewer than two coordinates panics.',
  'every list of features, every tile down to zoom 36, every float64 coordinate, every math library within 1e-13', INF,
  ['mvt/feature_reduce.go:12-84', 'tileid/tileid.go:36-58'])
p("C142",'The cover of whole geometries in float64',
  'In float64, TileCover of a geometry of several parts lists exactly the tiles of its parts, none twice, and panics exactly when a part does. For lines on the map these include the tile of every vertex and nothing but tiles of vertices and of points near a segment; for polygons, every tile within reach with a vertex well inside or a corner inside and clear of the edges. A Polygon of three points or fewer gets no tile although the MultiPolygon of that polygon does, and the points of a MultiPoint are not looked at.',
  'every geometry, every float64 coordinate on the map, every zoom to 28, every math library within 1e-13', INF,
  ['tile_cover/tile_cover.go:77-111', 'tile_cover/tile_cover.go:143-230'])
p("C143",'Clipping lines to tiles in float64',
  'With float64 arithmetic and the bounds the code computes, ClipTile of a line whose longitudes never decrease, or never increase, leaves the part of the line in the tile, to within 1e-10 degrees both ways. A segment taken one zoom down, and by ClipFeature down to any zoom to 30, gives each tile its part of the segment to within 1e-10 degrees, however many levels there are; if ClipFeature never returns, no point of the segment is 1e-10 degrees inside a tile of that zoom. False: a line that turns back into the strip of the tile is lost whole, and a child whose strip of longitudes has no point of the segment gets a feature without geometry.',
  'all tiles to zoom 40, all finite lines with coordinates to 255 degrees, all zooms, all map orders, all math libraries within the stated error', INF,
  ['mvt/clip.go:34-139', 'mvt/clip.go:357-367', 'mvt/clip.go:384-439', 'mvt/clip.go:461-501'])
p("C144",'ClipFeature in float64 takes any geometry, keeps levels faithfully and zooms out to the right ancestor',
  'In float64 arithmetic with an accurate math library, ClipFeature on a line, multiline, polygon or multipolygon (every line and ring with a point, every polygon with a ring) whose box lies in the world never panics. For a zoom below the first tile it either returns at least one entry, each in a distinct tile of that zoom under the first tile, or it never returns. With keep the result is exactly the whole feature in the first tile plus the entries of the runs without keep for every zoom on the way. For a zoom at or above the first tile the result is exactly the whole feature under the first tile and under the ancestor at that zoom, and the ancestor holds the box to 3e-9 degrees. The last part is false for a feature whose points coincide: it goes to tile 0/0 of the zoom wherever it is.',
  'every math library within the stated error, every map iteration order, every box in the world, every such geometry, every zoom up to 30, every fuel that suffices', INF,
  ['mvt/clip.go:461-499', 'mvt/clip.go:384-454', 'mvt/clip.go:198-256'])
p("C145",'ReadTile and ReadRawTile of whole tiles in float64',
  'With the mathematical library accurate to a few units in the last place, ReadTile of the layers of one tile, each written by WriteLayer from drawable float64 geometries, gives all features in order, each with the latest id written in its layer, its properties with the name of the layer added under "layer", and a geometry faithful to the one written as in C136; the geometries are, number for number, those of NewTile, Feature and ToGeoJSON; ReadRawTile gives the same features before projection (projecting every point of its geometries with the extent of its layer gives those of ReadTile), whatever the extents of the layers, and corners within 2.3e-13 degrees of longitude and 2.7e-12 degrees of latitude of the north-west and south-east corners of the tile',
  'for all tiles, lists of written layers, protocol variants and libraries with the stated accuracy', 'The equality with the lazy reader and the error bounds have to hold for every tile and position; the tests read one file with each reader',
  ['mvt/read_tile.go:ReadTile', 'mvt/read_tile.go:ReadRawTile', 'mvt/read_feature_lazy.go:ToGeoJSON', 'mvt/write_layer.go:WriteLayer'])
p("C146",'Lines clipped to a tile, written and read again in float64',
  'With the mathematical library accurate to a few units in the last place, a line between 85 degrees south and north whose longitudes never decrease (or never increase), clipped to a tile by ClipTile, is either gone, and then no point of it was 1e-10 degrees inside the tile, or what is left can be written by WriteLayer and read by ReadTile (up to 2^21 words): the result is one feature with the id given, its lines are within half a grid unit (180 over the number of units around the map, in degrees) plus 5e-9 degrees of the part of the line in the tile, and every point of the line 1e-10 degrees inside the tile is as near to them. The same holds for every line ClipFeature returns for a segment, for zooms to 30, and gives a line of one or two points',
  'for all float64 lines, tiles, extents from 2 with at most 2^36 units around the map, names, versions, ids, protocol variants, with and without clamping, and all libraries with the stated accuracy', 'Three sources of rounding meet here: the clipping, the grid and the projection; tests compare a few written bytes',
  ['mvt/clip.go:ClipTile', 'mvt/clip.go:ClipFeature', 'mvt/write_layer.go:WriteLayer', 'mvt/read_tile.go:ReadTile'])
p("C147",'Points sorted into tiles, written and read again in float64',
  'With the mathematical library accurate to a few units in the last place, PointClipAboutZoom puts every point of a feature between 85 degrees south and north (and not within 3e-9 degrees of the eastern end of the map) into the group of one tile of the map, within 3.1e-9 degrees of it. A tile with one point, at least one grid unit east or south of the north western corner of the tile, written by WriteLayer and read by ReadTile gives one Point with the id given, within half a grid unit (180 over the number of units around the map, in degrees) plus 4e-8 degrees of where it was',
  'for all float64 points, zooms 0 to 32, extents from 2 with at most 2^36 units around the map, names, versions, ids, protocol variants, with and without clamping, and all libraries with the stated accuracy', 'The tile of a point and its place on the grid of the tile are computed by different formulas, which can disagree at the edges of tiles; tests use points in the middle',
  ['mvt/clip.go:PointClipAboutZoom', 'mvt/write_layer.go:WriteLayer', 'mvt/read_tile.go:ReadTile'])
p("C148",'Polygons written and read again in float64 contain the same points',
  'With the mathematical library accurate to a few units in the last place, a polygon between 85 degrees south and north with vertices in the tile (up to 1e-10 degrees) is written by WriteLayer and read by ReadTile (extents 2 to 23168, up to 2^21 words): the result is one feature with the id given, a polygon with as many rings, and every point further from the outline than half a grid unit (180 over the number of units around the map, in degrees) plus 5e-9 degrees is inside the polygon read, by the even-odd rule, exactly when it was inside the one written. Repeated vertices, rings left open and rings turned around by the writer make no difference. Several polygons, of which all but the first have an outer ring that encloses area whichever grid points next to its vertices are taken, come back as as many polygons in the same order, each with the same points inside (one comes back as a polygon)',
  'for all float64 polygons and lists of polygons with any number of rings, all tiles, extents with at most 2^36 units around the map, names, versions, ids, protocol variants, with and without clamping, and all libraries with the stated accuracy', 'Which points are inside depends on every vertex, on the closing and turning of every ring and on the rounding to the grid; tests compare a few written bytes',
  ['mvt/write_layer.go:WriteLayer', 'mvt/read_tile.go:ReadTile', 'mvt/write_geometry.go:MakePolygonFloat', 'mvt/write_geometry.go:AssertConvert'])
p("C149",'Polygons clipped to a tile, written and read again in float64',
  'With the mathematical library accurate to a few units in the last place, a polygon between 85 degrees south and north, clipped to a tile by ClipTile, is either gone (ClipTile panics), and then no point of the tile further than 5e-7 degrees from its edges and from the outline was inside, or what is left has its vertices in the tile up to 1e-10 degrees; WriteLayer writes it and ReadTile reads one feature with the id given and as many rings, and a point of the tile is inside the polygon read, by the even-odd rule, exactly when it was inside the polygon before clipping, if it is further from the edges of the tile and from the outline than half a grid unit (180 over the number of units around the map, in degrees) plus 5.05e-7 degrees. A polygon with closed rings 1e-10 degrees inside the tile is left by ClipTile exactly as it is',
  'for all float64 polygons with any number of rings, all tiles, extents from 2 to 23168 with at most 2^36 units around the map, names, versions, ids, protocol variants, with and without clamping, and all libraries with the stated accuracy', 'Ring repair, two cuts, rounding to the grid and the projection all move the outline; tests compare a few written bytes',
  ['mvt/clip.go:ClipTile', 'mvt/clip.go:LintPolygon', 'mvt/write_layer.go:WriteLayer', 'mvt/read_tile.go:ReadTile'])
p("C150",'Polygons clipped to the tiles of a zoom, written and read again in float64',
  'With the mathematical library accurate to a few units in the last place, every polygon that ClipFeature returns for a polygon between 85 degrees south and north (zooms to 30, whatever order maps are iterated in) has its vertices in its tile up to 1e-10 degrees; WriteLayer writes it and ReadTile reads one feature with the id given and as many rings, and a point of the tile is inside the polygon read, by the even-odd rule, exactly when it was inside the polygon given to ClipFeature, if it is further from the edges of the tile and from the outline than half a grid unit (180 over the number of units around the map, in degrees) plus 5.05e-7 degrees plus 4.6e-7 degrees per level of clipping, and no polygon taken for a whole tile on the way left the point out',
  'for all float64 polygons with any number of rings, boxes in the world, zooms to 30, extents from 2 to 23168 with at most 2^36 units around the map, names, versions, ids, protocol variants, with and without clamping, and all libraries with the stated accuracy', 'The tiles come from up to thirty rounds of clipping, each cutting what the last one left; tests look at one or two tiles',
  ['mvt/clip.go:ClipFeature', 'mvt/clip.go:ClipDownTile', 'mvt/write_layer.go:WriteLayer', 'mvt/read_tile.go:ReadTile'])
p("C151",'Polygons with more area than their rim survive the grid in float64',
  'With the mathematical library accurate to a few units in the last place: rounding the vertices of a ring to the grid of a tile changes twice the area it encloses on the grid by at most 2h times the way around it along columns and rows plus 2h^2 for every vertex, where h is half a unit plus 9e-12 for every unit around the map. So a ring that encloses more than that still encloses area, and several polygons between 85 degrees south and north with vertices in the tile, of which all but the first have such an outer ring, are written by WriteLayer and read by ReadTile as as many polygons in the same order under the id given, each with as many rings and the same points inside further than half a grid unit plus 5e-9 degrees from the outline',
  'for all float64 lists of polygons with any number of rings and vertices, all tiles, extents from 2 to 23168 with at most 2^36 units around the map, names, versions, ids, protocol variants, with and without clamping, and all libraries with the stated accuracy', 'Whether a polygon collapses depends on how each of its vertices is rounded; tests use polygons far larger than a unit',
  ['mvt/write_layer.go:WriteLayer', 'mvt/read_tile.go:ReadTile', 'mvt/write_geometry.go:MakePolygonFloat', 'mvt/write_geometry.go:SignedArea2'])
p("C152",'Polygons without area join the polygon before',
  'Polygons written with the float geometry path (MakePolygonFloat, MakeMultiPolygonFloat) and read by LoadGeometry: one polygon always comes back with its rings, whatever they enclose; of several polygons, those whose outer ring encloses nothing on the grid come back as further rings of the polygon before, so the polygons come back as they were exactly when all but the first have an outer ring with area, and otherwise there are fewer. In every tile of at least three units there are two float64 polygons that are read as one',
  'for all lists of polygons with any number of rings with grid coordinates up to 23170 in size, and all projections onto the grid; the float64 witness for all tiles, extents with at most 2^36 units around the map and libraries of the stated accuracy', 'Only collections with a very small polygon that is not the first one change; tests use one polygon',
  ['mvt/write_geometry.go:MakeMultiPolygonFloat', 'mvt/write_geometry.go:AssertConvert', 'mvt/read_feature_lazy.go:LoadGeometry', 'mvt/read_feature_lazy.go:SignedArea'])
p("C153",'Integer polygon writers lose which rings belong together',
  'What is read of polygons written with MakePolygon or MakeMultiPolygon are the rings in the order written, closed, repeated neighbours once, first rings with area at most 0 and holes with area at least 0, cut into polygons before every ring of positive area and nowhere else, so there is exactly one polygon more than there are holes that enclose something: polygons without holes all become rings of one polygon, the polygon after a hole becomes a ring of the hole, and a single polygon comes back as one exactly if its holes enclose nothing.',
  'All nonempty lists of polygons with nonempty rings of coordinates within 23170 and fewer than 2^29 - 1 points.', INF,
  ['mvt/write_geometry.go:159-186', 'mvt/write_geometry.go:241-263', 'mvt/write_geometry.go:353-357', 'mvt/read_feature_lazy.go:205-224'])
p("C154",'Several points never come back',
  'Of two or more points written with MakeMultiPoint or MakeMultiPointFloat, or as the MultiPoint geometry of a feature of a layer, nothing that is read is right: reading fails, or gives one point, or a MultiPoint with fewer points than written, for all coordinates.',
  'All lists of 2 to 2^29 - 1 points, all int32 or projected coordinates, all written layers.', INF,
  ['mvt/write_geometry.go:320-333', 'mvt/read_feature_lazy.go:138-251'])
p("C155",'Polygons with large coordinates keep their rings, not their direction',
  'For coordinates up to 2^30, where the 32 bit areas of the writers overflow, the rings of polygons written with MakeMultiPolygonFloat or MakeMultiPolygon come back in the order written, closed, repeated neighbours once, each one as it is or turned round, and cut into polygons before every ring of positive area; a polygon without holes always comes back as one polygon with that ring, in one direction or the other. A square of 32768 units is turned the wrong way.',
  'All nonempty lists of polygons with nonempty rings of fewer than 2^29 - 1 points with coordinates in [-2^30, 2^30), every rounding of positions to the grid that respects the equality of the writer.', INF,
  ['mvt/write_geometry.go:159-275', 'mvt/write_geometry.go:347-357', 'mvt/read_feature_lazy.go:154-224'])
p("C156",'Lines of any int32 points: exactly when they come back',
  'Lines of int32 points written with MakeLine or MakeMultiLine are read, with exact sums, as the points written, repeated neighbours once, moved by multiples of 2^32 in the one way that makes every step from the origin through all lines an int32; so they come back as they are if and only if no step along them, including the one from the origin and those between lines, overflows int32.',
  'All nonempty lists of nonempty lines of fewer than 2^29 points with any int32 coordinates.', INF,
  ['mvt/write_geometry.go:98-136', 'mvt/write_geometry.go:335-345', 'mvt/read_feature_lazy.go:154-195'])
p("C157",'Geometries of other producers, encoded as the specification says',
  'Command sequences encoded as section 4.3 of the vector tile specification prescribes (parameters zig-zag coded steps from a cursor that ClosePath leaves alone, rings without their closing point) are read by LoadGeometry as the lines or polygons they stand for, rings with their first point at the end: lines always, polygons whenever exterior rings have positive area and interior ones do not; other rings are cut into polygons before each ring of positive area. One point is read as it is, but several points never: reading fails or gives fewer points.',
  'All nonempty lists of nonempty lines, rings or points with integer coordinates (sums exact, as in the model of the reader), repeated points included.', INF,
  ['mvt/read_feature_lazy.go:138-254', 'mvt/read_feature_lazy.go:23-48'])
p("C158",'What the writers emit and where it breaks the specification',
  "MakeMultiLine emits the specification's encoding of its lines with repeated neighbours once; a line conforms unless all its points are the same (LineTo count 0). MakeMultiPolygonFloat emits the specification's encoding of its rings, but no ring ever conforms: each repeats its first position before ClosePath. Points are encoded as the specification says exactly if each differs from the one before and the first from the origin; otherwise the parameters are fewer than the count announces.",
  'All lists of nonempty lines with coordinates within 2^30, polygons with grid coordinates within 23170 and point lists, of fewer than 2^29 points each.', INF,
  ['mvt/write_geometry.go:107-136', 'mvt/write_geometry.go:207-239', 'mvt/write_geometry.go:265-275', 'mvt/write_geometry.go:306-357'])
p("C159",'Geometries encoded as the specification says, read in binary64',
  'In binary64 arithmetic LoadGeometry reads lines encoded as the vector tile specification prescribes as they are, without rounding, and conforming polygons too, with the same division into polygons and holes, provided coordinates are small enough; beyond that two conforming polygons can be read as one polygon with a hole.',
  'Lines with coordinates below 2^30 in size and polygons with coordinates up to 23170 (or, in general, with the count of numbers times 4 times the square of the largest coordinate at most 2^53), of at most 2^22 numbers.', INF,
  ['mvt/read_feature_lazy.go:23-48', 'mvt/read_feature_lazy.go:138-254'])
p("C160",'Which writers wind polygons as the specification demands',
  "MakeMultiPolygon emits the specification's encoding of its rings, but its first ring never has positive area, so its output is not the encoding of any polygons in the sense of the specification. MakeMultiPolygonFloat emits exterior rings of positive area followed by interior rings without, exactly if no outer ring encloses nothing on the grid.",
  'All lists of polygons of nonempty rings of fewer than 2^29 points, grid coordinates within 23170 (nonempty lists for the refutation); float points of any type.', INF,
  ['mvt/write_geometry.go:159-186', 'mvt/write_geometry.go:207-275', 'mvt/write_geometry.go:347-357'])
p("C161",'Geometries of other producers survive reading and writing',
  'Conforming polygons that are read and then written with MakeMultiPolygonFloat are read as before, with repeated neighbours once: same order, same holes, same winding. The numbers emitted are the same only if every ring already repeated its first point at the end and had no other repeated neighbours. Lines that are read and written again with MakeMultiLine are read as before with repeated neighbours once, and give the same numbers if there are none.',
  'All nonempty lists of conforming polygons with coordinates within 23170 and rings of fewer than 2^29 - 2 points, and of nonempty lines with coordinates within 2^30 of fewer than 2^29 points.', INF,
  ['mvt/read_feature_lazy.go:138-254', 'mvt/write_geometry.go:107-136', 'mvt/write_geometry.go:207-275', 'mvt/write_geometry.go:335-351'])
p("C162",'Features of other producers from bytes to geometry',
  'If the feature number i of a layer is, somewhere in the buffer, a feature message as the vector tile specification defines it (optional id, optional even number of tags, type, packed geometry), Layer.Feature returns its id, its type and as properties the table entries its tags point to, the last one for each key, and LoadGeometryRaw its geometry numbers; LoadGeometry gives conforming polygons with rings closed, and lines as they are. Several points are not given back. Features of at least three geometry numbers are read so whichever operand of Buf.Pos + Buf.ReadVarint() is evaluated first, in buffers below 2^28 bytes.',
  'All buffers shorter than 2^62 bytes, all positions of the message in them, all layers; ids below 2^63; geometry numbers of 32 bits; all nonempty conforming polygons and lines.', INF,
  ['mvt/read_feature_lazy.go:61-136', 'mvt/read_feature_lazy.go:138-254'])
p("C163",'The fields of a feature in any order',
  'Layer.Feature reads the fields of a feature message (id, tags, type, geometry) in any order and any number of times: the id and the type are those of the last such field (0 without one), the properties those of the tags of all tag fields together, the last one for each key, and LoadGeometryRaw and LoadGeometry use the last geometry field. A geometry split into two packed fields, which a protobuf reader must join, loses its first part.',
  'All lists of fields (ids below 2^63, types 1 to 3, numbers of 32 bits, even numbers of tags), all buffers shorter than 2^62 bytes, all positions in them, all layers.', INF,
  ['mvt/read_feature_lazy.go:61-136', 'mvt/read_feature_lazy.go:138-254'])

if __name__ == "__main__":
    out = os.path.join(os.path.dirname(os.path.dirname(os.path.abspath(__file__))), "properties.jsonl")
    ids = [q["id"] for q in P]; assert len(ids) == len(set(ids))
    with open(out, "w") as f:
        for q in P: f.write(json.dumps(q, ensure_ascii=False) + "\n")
    print(len(P), "properties")
