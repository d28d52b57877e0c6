-Q theories Verif
theories/Prelude.v
theories/OctreeModel.v
theories/OctreeSpec.v
theories/OctreeProofs.v
theories/OctreeGrid.v
theories/PropsOctree.v
theories/CacheModel.v
theories/RenderIOModel.v
theories/PropsRenderIO.v
theories/McTables.v
theories/McModel.v
theories/McSpec.v
theories/McProofs.v
theories/McManifold.v
theories/Vec.v
theories/McRealModel.v
theories/PropsMc.v
theories/BoxModel.v
theories/PropsBox.v
theories/OctreeR.v
theories/PropsSampling.v
theories/PropsSurface.v
theories/StlModel.v
theories/StlProofs.v
theories/PropsStl.v
theories/PipelineModel.v
theories/PropsPipeline.v
theories/ThreeMFModel.v
theories/PropsThreeMF.v
theories/CreateModel.v
theories/PropsCreate.v
theories/MatrixModel.v
theories/PropsMatrix.v
theories/SdfModel.v
theories/PropsBool.v
theories/SdfLemmas.v
theories/PropsCsg.v
theories/Trig.v
theories/Grades.v
theories/GradesOps.v
theories/GradesSweep.v
theories/GradesCopy.v
theories/GradesRest.v
theories/Distance.v
theories/PrimModel.v
theories/PrimCores.v
theories/PropsPrim.v
theories/PropsBounds.v
theories/BlendModel.v
theories/PropsBlend.v
theories/PropsUnion2.v
theories/PropsLip.v
theories/PropsSweep.v
theories/PropsCopies.v
theories/PropsCopiesBox.v
theories/UtilModel.v
theories/PropsUtil.v
theories/TransformModel.v
theories/PropsTransform.v
theories/PolyModel.v
theories/PropsPoly.v
theories/PropsBuilder.v
theories/PropsFillet.v
theories/ObjModel.v
theories/PropsForm.v
theories/PropsThread.v
theories/PropsProfile.v
theories/PropsThreadShape.v
theories/PropsScrew.v
theories/PropsConvex.v
theories/PropsParts.v
theories/BihModel.v
theories/PropsTri.v
theories/PropsBih.v
theories/PropsBihSign.v
theories/Tri2Model.v
theories/PropsTri2.v
theories/OmeshModel.v
theories/PropsOmesh.v
theories/BccModel.v
theories/PropsBcc.v
theories/TetMeshModel.v
theories/PropsTetMesh.v
theories/ImportModel.v
theories/PropsImport.v
theories/PseudoModel.v
theories/PropsPseudo.v
theories/KdModel.v
theories/PropsKd.v
theories/MiscModel.v
theories/PropsMisc.v
theories/PropsRound.v
theories/FloatBoolModel.v
theories/PropsFloatBool.v
theories/FloatRound.v
theories/FloatShapeModel.v
theories/FloatNear.v
theories/PropsFloatSign.v
theories/FloatTrack.v
theories/FloatInv.v
theories/FloatRules.v
theories/FloatCopies.v
theories/FloatBoundsModel.v
theories/FloatPolyModel.v
theories/FloatPoly.v
theories/PropsFloatTrack.v
theories/FloatRenderModel.v
theories/FloatRender.v
theories/PropsFloatRender.v
theories/FloatSetup.v
theories/PropsFloatSetup.v
theories/FloatBounds.v
theories/PropsFloatBounds.v
theories/FloatRound32.v
theories/FloatStlModel.v
theories/PropsFloatStl.v
theories/ExampleModel.v
theories/PropsHex.v
theories/PropsSpacer.v
theories/PropsBoards.v
theories/PropsCover.v
theories/PropsFlange.v
theories/PropsAtx.v
theories/FloatTriModel.v
theories/PropsFloatTri.v
theories/PropsFloatTriNear.v
theories/PropsFloatTriWrong.v
theories/BccNaiveModel.v
theories/PropsNaive.v
theories/PropsFloatRect.v
