-Q theories Verif
theories/Base.v
theories/BitSpec.v
theories/UnalignedRW.v
theories/BitIOSpec.v
theories/BitLemmas.v
theories/UnalignedRW_proofs.v
theories/P_BitIO.v
theories/ReadExt.v
theories/Triangles.v
theories/TriSpec.v
theories/ByteLemmas.v
theories/Triangles_proofs.v
theories/OptTris.v
theories/OptTris_proofs.v
theories/P_Triangles.v
theories/Floats.v
theories/Utilis.v
theories/Unify.v
theories/Vertices.v
theories/Uv.v
theories/Normals.v
theories/CustomData.v
theories/Mesh.v
theories/OptVertices.v
theories/Tmf.v
theories/File.v
theories/Floats_proofs.v
theories/Parse_proofs.v
theories/Codec_proofs.v
theories/FileSpec.v
theories/File_proofs.v
theories/NoPanic_proofs.v
theories/Async.v
theories/Async_proofs.v
theories/Load_proofs.v
theories/Demo.v
theories/P_File.v
theories/SaveSpec.v
theories/Merge_proofs.v
theories/Save_proofs.v
theories/Agree_proofs.v
theories/OptVertices_proofs.v
theories/Save2_proofs.v
theories/Panic_proofs.v
theories/Save3_proofs.v
theories/Save4_proofs.v
theories/P_Save.v
theories/MeshSpec.v
theories/Mesh_proofs.v
theories/Unify_proofs.v
theories/Mesh2_proofs.v
theories/P_Mesh.v
theories/Split_proofs.v
theories/P_Split.v
theories/Image_proofs.v
theories/FloatReal_proofs.v
theories/ValueSpec.v
theories/Quant_proofs.v
theories/Log2_proofs.v
theories/Trig_proofs.v
theories/P_Uv.v
theories/NormalReal_proofs.v
theories/P_Normals.v
theories/VertexSpec.v
theories/VertexReal_proofs.v
theories/P_Vertices.v
theories/CustomReal_proofs.v
theories/P_Custom.v
theories/Importer.v
theories/Obj.v
theories/ObjSpec.v
theories/Obj_proofs.v
theories/Obj2_proofs.v
theories/P_Obj.v
theories/PolygonSpec.v
theories/Polygon_proofs.v
theories/P_Polygon.v
theories/Normalize_proofs.v
theories/P_Normalize.v
theories/Lz77.v
theories/LzSpec.v
theories/Lz_proofs.v
theories/P_Lz.v
theories/ReorderTri.v
theories/ReorderSpec.v
theories/Reorder_proofs.v
theories/P_Reorder.v
theories/StorageSize.v
theories/Storage_proofs.v
theories/P_Storage.v
theories/PlatformSpec.v
theories/Platform_proofs.v
theories/Range_proofs.v
theories/RangeSpec.v
theories/Range2_proofs.v
theories/P_Platform.v
theories/FastTrig.v
theories/FastTrig_proofs.v
theories/FastTrig2_proofs.v
theories/FastTrigSpec.v
theories/FastTrig3_proofs.v
theories/P_FastTrig.v
theories/IndexWidth.v
theories/IndexSpec.v
theories/IndexWidth_proofs.v
theories/IndexWidth2_proofs.v
theories/IndexWidth3_proofs.v
theories/P_Index.v
theories/IndexMesh.v
theories/IndexMesh_proofs.v
theories/P_IndexMesh.v
theories/LayoutSpec.v
theories/Layout_proofs.v
theories/Double.v
theories/DoubleSpec.v
theories/Double_proofs.v
theories/Double2_proofs.v
theories/Double3_proofs.v
theories/Layout2_proofs.v
theories/Layout3_proofs.v
theories/P_Layout.v
theories/P_Double.v
theories/StreamSpec.v
theories/Stream.v
theories/Stream_proofs.v
theories/ObjStream.v
theories/ObjStream_proofs.v
theories/P_Stream.v
theories/ObjTextSpec.v
theories/P_ObjText.v
theories/DoubleSave.v
theories/DMerge_proofs.v
theories/DCodec_proofs.v
theories/DoubleSaveSpec.v
theories/DSave_proofs.v
theories/DAgree_proofs.v
theories/Exchange_proofs.v
theories/P_DoubleSave.v
theories/DoubleValueSpec.v
theories/DQuant_proofs.v
theories/DVertex_proofs.v
theories/DPiece_proofs.v
theories/DCustom_proofs.v
theories/P_DoubleValue.v
theories/FloatText.v
theories/FloatTextSpec.v
theories/FloatText_proofs.v
theories/P_FloatText.v
theories/DoubleNormalSpec.v
theories/DNormal_proofs.v
theories/P_DoubleNormals.v
theories/Again_proofs.v
theories/P_Again.v
theories/P_AgainDouble.v
theories/WidenSpec.v
theories/Widen_proofs.v
theories/WidenFloat_proofs.v
theories/P_Widen.v
theories/ObjAny.v
theories/ObjAnySpec.v
theories/ObjAny_proofs.v
theories/P_ObjAny.v
theories/P_BitPair.v
theories/P_IndexPanic.v
theories/P_UvWrap.v
theories/P_Share.v
theories/P_VerifyReal.v
theories/CheckedSpec.v
theories/VSave_proofs.v
theories/P_Checked.v
theories/P_Default.v
theories/FineSpec.v
theories/Fine_proofs.v
theories/Fine2_proofs.v
theories/Fine3_proofs.v
theories/P_Fine.v
theories/DoubleMesh.v
theories/DoubleMeshSpec.v
theories/DNormalize_proofs.v
theories/DMesh_proofs.v
theories/DVerify_proofs.v
theories/P_DoubleMesh.v
theories/Cosine_proofs.v
theories/P_NormalizeSave.v
theories/UnifyPanic_proofs.v
theories/P_UnifyPanic.v
theories/DoubleEdit.v
theories/DEdit_proofs.v
theories/P_DoubleEdit.v
theories/DoublePanicSpec.v
theories/DSplit_proofs.v
theories/DPanic_proofs.v
theories/DVSave_proofs.v
theories/P_DoubleChecked.v
theories/P_DoubleDefault.v
theories/DFineSpec.v
theories/DFine_proofs.v
theories/DFine2_proofs.v
theories/DFine3_proofs.v
theories/P_DoubleFine.v
theories/DWiden_proofs.v
theories/DWidenFloat_proofs.v
theories/P_DoubleWiden.v
theories/PublishedSpec.v
theories/Published_proofs.v
theories/DPublished_proofs.v
theories/P_Published.v
theories/PrepareSpec.v
theories/Prepare_proofs.v
theories/P_Prepare.v
theories/ImportedSpec.v
theories/Imported_proofs.v
theories/P_Imported.v
theories/VerifyText.v
theories/VerifyTextSpec.v
theories/VerifyText_proofs.v
theories/P_VerifyText.v
theories/DoublePrepareSpec.v
theories/DPrepare_proofs.v
theories/P_DoublePrepare.v
theories/TriAny.v
theories/TriAny_proofs.v
theories/ImportedAnySpec.v
theories/ImportedAny_proofs.v
theories/ObjAny2Spec.v
theories/ObjAny2_proofs.v
theories/P_ImportedAny.v
theories/P_ColorWrap.v
theories/P_NotNumbers.v
theories/P_DoubleNotNumbers.v
theories/P_DoubleWrap.v
theories/ExchangeValueSpec.v
theories/P_ExchangeValue.v
theories/ExchangeBox_proofs.v
theories/P_ExchangeVertex.v
theories/CustomDefault.v
theories/P_CustomDefault.v
theories/P_Radians.v
