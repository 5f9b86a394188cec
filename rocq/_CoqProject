-Q theories Verif

theories/Bits_Props.v
theories/Client_Model.v
theories/Client_Props.v
theories/Clip64_Proofs.v
theories/Clip64_Props.v
theories/ClipFeature64_Model.v
theories/ClipFeature64_Proofs.v
theories/ClipFeature64_Props.v
theories/ClipFeature_Model.v
theories/ClipFeature_Proofs.v
theories/ClipFeature_Props.v
theories/ClipKeep64_Props.v
theories/ClipLine64_Proofs.v
theories/ClipLine64_Props.v
theories/ClipPoints_Props.v
theories/ClipPoly64_Props.v
theories/ClipRing_Proofs.v
theories/ClipSquare64_Props.v
theories/ClipTile64_Model.v
theories/ClipTile64_Proofs.v
theories/ClipTile64_Props.v
theories/Clip_Model.v
theories/Clip_Proofs.v
theories/Clip_Props.v
theories/Clip_Spec.v
theories/ColorF64_Model.v
theories/ColorF64_Proofs.v
theories/ColorF64_Props.v
theories/ColorStr_Props.v
theories/Color_Model.v
theories/Color_Props.v
theories/Cover64_Model.v
theories/Cover64_Props.v
theories/Cover_Model.v
theories/Cover_Proofs.v
theories/Cover_Props.v
theories/Cover_Spec.v
theories/Db_Model.v
theories/Db_Props.v
theories/Decode64_Model.v
theories/Decode64_Props.v
theories/Docs_Model.v
theories/Docs_Proofs.v
theories/Docs_Props.v
theories/F64.v
theories/Features_Model.v
theories/Features_Props.v
theories/Font_Model.v
theories/Font_Props.v
theories/GoArr.v
theories/GoBase.v
theories/GoStr.v
theories/Grid_Model.v
theories/Grid_Props.v
theories/Json.v
theories/Line64_Model.v
theories/Line64_Proofs.v
theories/Line64_Props.v
theories/Mbtiles_Model.v
theories/Mbtiles_Props.v
theories/Meta_Model.v
theories/Meta_Proofs.v
theories/Meta_Props.v
theories/MvtAgain64_Model.v
theories/MvtAgain64_Props.v
theories/MvtAgain_Proofs.v
theories/MvtAlloc_Model.v
theories/MvtAlloc_Props.v
theories/MvtBig_Props.v
theories/MvtDecode_Props.v
theories/MvtFieldOrder_Props.v
theories/MvtFlat_Props.v
theories/MvtForeignAgain_Props.v
theories/MvtForeign_Props.v
theories/MvtGeo64_Model.v
theories/MvtGeo64_Proofs.v
theories/MvtGeo64_Props.v
theories/MvtGeo_Model.v
theories/MvtGeo_Props.v
theories/MvtGeom_Model.v
theories/MvtGeom_Proofs.v
theories/MvtGeom_Props.v
theories/MvtGeom_Spec.v
theories/MvtIntWritten_Props.v
theories/MvtInt_Props.v
theories/MvtIter_Model.v
theories/MvtIter_Props.v
theories/MvtLayerRead_Proofs.v
theories/MvtLayer_Model.v
theories/MvtLayer_Proofs.v
theories/MvtLayer_Props.v
theories/MvtLayer_Spec.v
theories/MvtLine32_Props.v
theories/MvtOrder_Model.v
theories/MvtOrder_Proofs.v
theories/MvtOrder_Props.v
theories/MvtPoints_Props.v
theories/MvtProj64_Model.v
theories/MvtProj64_Proofs.v
theories/MvtProj64_Props.v
theories/MvtProj_Model.v
theories/MvtProj_Proofs.v
theories/MvtRead64_Model.v
theories/MvtRead64_Props.v
theories/MvtStandard64_Props.v
theories/MvtStandardBytes_Props.v
theories/MvtStandard_Props.v
theories/MvtTile_Proofs.v
theories/MvtTile_Props.v
theories/MvtWritten_Props.v
theories/Names_Model.v
theories/Names_Props.v
theories/Num.v
theories/Parity_Proofs.v
theories/Pbf_Model.v
theories/Pbf_Proofs.v
theories/Pip64_Model.v
theories/Pip64_Props.v
theories/Points64_Model.v
theories/Points64_Props.v
theories/Poly64_Model.v
theories/Poly64_Proofs.v
theories/Poly64_Props.v
theories/RasterF64_Model.v
theories/RasterF64_Props.v
theories/Raster_Model.v
theories/Raster_Proofs.v
theories/Raster_Props.v
theories/Reduce64_Model.v
theories/Reduce64_Props.v
theories/Reduce_Model.v
theories/Reduce_Props.v
theories/Regex.v
theories/Scale_Model.v
theories/Scale_Props.v
theories/SdfF64_Model.v
theories/SdfF64_Proofs.v
theories/SdfF64_Props.v
theories/Sdf_Model.v
theories/Sdf_Proofs.v
theories/Sdf_Props.v
theories/Sdf_Spec.v
theories/Simplify64_Proofs.v
theories/Simplify64_Props.v
theories/Simplify_Model.v
theories/Simplify_Props.v
theories/Sphere64_Model.v
theories/Sphere64_Props.v
theories/Sphere_Model.v
theories/Sphere_Props.v
theories/Sprite_Model.v
theories/Sprite_Proofs.v
theories/Sprite_Props.v
theories/Style64_Model.v
theories/Style64_Props.v
theories/StyleFile_Model.v
theories/StyleFile_Props.v
theories/StyleJson_Model.v
theories/StyleJson_Proofs.v
theories/StyleJson_Props.v
theories/Style_Model.v
theories/Style_Props.v
theories/Terra64_Model.v
theories/Terra64_Props.v
theories/Tile64_Model.v
theories/Tile64_Proofs.v
theories/Tile64_Props.v
theories/TileArea64_Props.v
theories/TileCut64_Props.v
theories/TileF64_Model.v
theories/TileF64_Proofs.v
theories/TileFeature64_Props.v
theories/TileLine64_Proofs.v
theories/TileLine64_Props.v
theories/TilePoint64_Props.v
theories/TilePoly64_Proofs.v
theories/TilePoly64_Props.v
theories/TileR_Model.v
theories/TileR_Proofs.v
theories/TileR_Props.v
theories/Tileid_Model.v
theories/Tileid_Proofs.v
theories/Tileid_Props.v
theories/Tilejson_Model.v
theories/Tilejson_Props.v
theories/Trim_Model.v
theories/Trim_Props.v
