-Q theories Verif

theories/BitVectorModel.v
theories/BitVectorSpec.v
theories/BitVectorProofs.v
theories/PropertiesBitVector.v
theories/ShaderModel.v
theories/ShaderSpec.v
theories/ShaderProofs.v
theories/ShaderSim.v
theories/ShaderStmt.v
theories/ShaderRun.v
theories/ShaderFinal.v
theories/ShaderCases.v
theories/PropertiesShader.v
theories/CsgModel.v
theories/CsgSpec.v
theories/CsgProofs.v
theories/PropertiesCsg.v
theories/JitterModel.v
theories/JitterSpec.v
theories/JitterProofs.v
theories/PropertiesJitter.v
theories/RandomModel.v
theories/RandomSpec.v
theories/RandomProofs.v
theories/PropertiesRandom.v
theories/MotionModel.v
theories/MotionSpec.v
theories/MotionProofs.v
theories/PropertiesMotion.v
theories/StateModel.v
theories/StateSpec.v
theories/StateProofs.v
theories/PropertiesState.v
theories/PixelModel.v
theories/PixelSpec.v
theories/PixelProofs.v
theories/PropertiesPixel.v
theories/HitModel.v
theories/HitSpec.v
theories/HitProofs.v
theories/PropertiesHit.v
theories/RibBufModel.v
theories/RibBufSpec.v
theories/RibBufProofs.v
theories/PropertiesRibBuf.v
theories/RibTokModel.v
theories/RibTokSpec.v
theories/RibTokProofs.v
theories/PropertiesRibTok.v
theories/RibWriteModel.v
theories/RibWriteSpec.v
theories/RibWriteProofs.v
theories/PropertiesRibWrite.v
theories/RibNumSpec.v
theories/RibNumProofs.v
theories/PropertiesRibNum.v
theories/RibLexModel.v
theories/RibLexSpec.v
theories/RibLexProofs.v
theories/RibChainSpec.v
theories/RibChainProofs.v
theories/PropertiesRibLex.v
theories/RibTextSpec.v
theories/RibTextProofs.v
theories/PropertiesRibText.v
theories/RibStackModel.v
theories/RibStackSpec.v
theories/RibStackProofs.v
theories/PropertiesRibStack.v
theories/ArchiveModel.v
theories/ArchiveSpec.v
theories/ArchiveProofs.v
theories/PropertiesArchive.v
theories/FrameModel.v
theories/FrameSpec.v
theories/FrameProofs.v
theories/PropertiesFrame.v
theories/DeclModel.v
theories/DeclSpec.v
theories/DeclProofs.v
theories/PropertiesDecl.v
theories/ValidModel.v
theories/ValidSpec.v
theories/ValidProofs.v
theories/PropertiesValid.v
theories/MeshModel.v
theories/MeshSpec.v
theories/MeshProofs.v
theories/PropertiesMesh.v
theories/PrimModel.v
theories/PrimSpec.v
theories/PrimProofs.v
theories/PropertiesPrim.v
theories/PolyModel.v
theories/PolySpec.v
theories/PolyProofs.v
theories/PropertiesPoly.v
theories/OcclModel.v
theories/OcclSpec.v
theories/OcclProofs.v
theories/PropertiesOccl.v
theories/TexModel.v
theories/TexSpec.v
theories/TexProofs.v
theories/PropertiesTex.v
theories/TiffModel.v
theories/TiffSpec.v
theories/TiffProofs.v
theories/PropertiesTiff.v
theories/AccumModel.v
theories/AccumSpec.v
theories/AccumProofs.v
theories/PropertiesAccum.v
theories/StochModel.v
theories/StochSpec.v
theories/StochProofs.v
theories/PropertiesStoch.v
theories/MipModel.v
theories/MipSpec.v
theories/MipProofs.v
theories/PropertiesMip.v
theories/HashModel.v
theories/HashSpec.v
theories/HashProofs.v
theories/PropertiesHash.v
theories/SearchModel.v
theories/SearchSpec.v
theories/SearchProofs.v
theories/PropertiesSearch.v
theories/OptModel.v
theories/OptSpec.v
theories/OptProofs.v
theories/PropertiesOpt.v
theories/EscModel.v
theories/EscSpec.v
theories/EscProofs.v
theories/PropertiesEsc.v
theories/CondModel.v
theories/CondSpec.v
theories/CondProofs.v
theories/PropertiesCond.v
theories/TypeModel.v
theories/TypeSpec.v
theories/TypeProofs.v
theories/PropertiesType.v
theories/BucketModel.v
theories/BucketSpec.v
theories/BucketProofs.v
theories/PropertiesBucket.v
theories/PostModel.v
theories/PostSpec.v
theories/PostProofs.v
theories/PropertiesPost.v
theories/FilterModel.v
theories/FilterSpec.v
theories/FilterProofs.v
theories/PropertiesFilter.v
theories/DisplayModel.v
theories/DisplaySpec.v
theories/DisplayProofs.v
theories/PropertiesDisplay.v
theories/MpgModel.v
theories/MpgSpec.v
theories/MpgProofs.v
theories/PropertiesMpg.v
theories/MovModel.v
theories/MovSpec.v
theories/MovProofs.v
theories/PropertiesMov.v
theories/SplitModel.v
theories/SplitSpec.v
theories/SplitProofs.v
theories/SplitDiceProofs.v
theories/PropertiesSplit.v
theories/ShadModel.v
theories/ShadSpec.v
theories/ShadProofs.v
theories/PropertiesShad.v
theories/MatModel.v
theories/MatSpec.v
theories/MatProofs.v
theories/PropertiesMat.v
theories/XformModel.v
theories/XformSpec.v
theories/XformProofs.v
theories/PropertiesXform.v
theories/SpaceModel.v
theories/SpaceSpec.v
theories/SpaceProofs.v
theories/PropertiesSpace.v
theories/CamModel.v
theories/CamSpec.v
theories/CamProofs.v
theories/PropertiesCam.v
theories/TrimModel.v
theories/TrimSpec.v
theories/TrimProofs.v
theories/PropertiesTrim.v
theories/NurbModel.v
theories/NurbSpec.v
theories/NurbProofs.v
theories/NurbMath.v
theories/NurbClamp.v
theories/ImageModel.v
theories/ImageSpec.v
theories/ImageProofs.v
theories/PropertiesImage.v
theories/ColorModel.v
theories/ColorSpec.v
theories/ColorProofs.v
theories/ColorInverse.v
theories/PropertiesColor.v
theories/PropertiesNurb.v
