-Q theories Verif
theories/Chain.v
theories/ChainSpec.v
theories/ChainProofs.v
theories/ChainWitness.v
theories/ChainProps.v
theories/Pins.v
theories/PinsSpec.v
theories/PinsProofs.v
theories/Exec.v
theories/ExecProofs.v
theories/PinsWitness.v
theories/PinsProps.v
theories/Stream.v
theories/StreamSpec.v
theories/StreamProofs.v
theories/StreamWitness.v
theories/StreamProps.v
theories/Xml.v
theories/XmlSpec.v
theories/XmlProofs.v
theories/XmlWitness.v
theories/XmlProps.v
theories/SharedPtr.v
theories/SharedPtrSpec.v
theories/SharedPtrProofs.v
theories/SharedPtrWitness.v
theories/SharedPtrProps.v
theories/Registry.v
theories/RegistrySpec.v
theories/RegistryProofs.v
theories/RegistryProps.v
theories/Field.v
theories/FieldSpec.v
theories/FieldProofs.v
theories/Vec.v
theories/FieldAvg.v
theories/FieldAvgSpec.v
theories/FieldAvgProofs.v
theories/FieldWitness.v
theories/FieldProps.v
theories/Shape.v
theories/ShapeSpec.v
theories/ShapeProofs.v
theories/ShapeCoord.v
theories/ShapeSel.v
theories/ShapeSelSpec.v
theories/ShapeSelProofs.v
theories/ShapeWitness.v
theories/ShapeProps.v
theories/Mesh.v
theories/MeshSpec.v
theories/MeshProofs.v
theories/MeshInterp.v
theories/MeshBuild.v
theories/MeshWitness.v
theories/MeshProps.v
theories/Lattice.v
theories/LatticeNumber.v
theories/LatticeProofs.v
theories/LatticeSpec.v
theories/LatticeBuild.v
theories/LatticeGeom.v
theories/LatticeWitness.v
theories/LatticeProps.v
theories/Manip.v
theories/ManipSpec.v
theories/ManipProofs.v
theories/ManipMoves.v
theories/ManipApply.v
theories/ManipWitness.v
theories/ManipProps.v
theories/Subset.v
theories/SubsetSpec.v
theories/SubsetProofs.v
theories/SubsetProps.v
theories/Ghost.v
theories/GhostSpec.v
theories/GhostProofs.v
theories/GhostWitness.v
theories/GhostProps.v
theories/Sync.v
theories/SyncSpec.v
theories/SyncProofs.v
theories/SyncWitness.v
theories/SyncProps.v
theories/Ffd.v
theories/FfdSpec.v
theories/FfdBasis.v
theories/FfdKnots.v
theories/FfdCurve.v
theories/FfdSums.v
theories/FfdEval.v
theories/FfdReady.v
theories/FfdProofs.v
theories/FfdForms.v
theories/FfdBuild.v
theories/FfdMoves.v
theories/FfdWitness.v
theories/FfdProps.v
theories/FfdWrap.v
theories/FfdCont.v
theories/FfdWrapProps.v
theories/Rbf.v
theories/RbfSpec.v
theories/RbfProofs.v
theories/RbfKernel.v
theories/RbfWitness.v
theories/RbfProps.v
theories/RbfInputProps.v
theories/Obj.v
theories/ObjSpec.v
theories/ObjProofs.v
theories/PidProps.v
theories/ObjProps.v
theories/Select.v
theories/SelectSpec.v
theories/SelectProofs.v
theories/SelectProps.v
theories/ClipProps.v
theories/StitchProps.v
theories/Tri.v
theories/TriSpec.v
theories/TriProofs.v
theories/TriProps.v
theories/DegProofs.v
theories/DegProps.v
theories/Topo.v
theories/TopoSpec.v
theories/TopoProofs.v
theories/TopoProps.v
theories/BorderSpec.v
theories/BorderProofs.v
theories/BorderProps.v
theories/Band.v
theories/BandSpec.v
theories/BandProofs.v
theories/BandProps.v
theories/Recon.v
theories/ReconSpec.v
theories/ReconProofs.v
theories/ReconProps.v
theories/Extract.v
theories/ExtractSpec.v
theories/ExtractProofs.v
theories/ExtractProps.v
theories/SkdSel.v
theories/SkdSelSpec.v
theories/SkdSelProofs.v
theories/SkdSelProps.v
theories/SkdDist.v
theories/SkdDistSpec.v
theories/SkdDistProofs.v
theories/SkdDistProps.v
theories/CGUtil.v
theories/CGUtilSpec.v
theories/CGUtilProofs.v
theories/CGUtilProps.v
theories/Mpi.v
theories/MpiSpec.v
theories/MpiProofs.v
theories/GlobDist.v
theories/GlobDistSpec.v
theories/GlobDistProofs.v
theories/GlobDistProps.v
theories/Share.v
theories/ShareSpec.v
theories/ShareProofs.v
theories/ShareProps.v
theories/Text.v
theories/TextSpec.v
theories/TextProofs.v
theories/CsvIo.v
theories/CsvIoSpec.v
theories/CsvIoProofs.v
theories/CsvIoProps.v
theories/LabelIo.v
theories/LabelIoSpec.v
theories/LabelIoProofs.v
theories/LabelIoProps.v
theories/Specular.v
theories/SpecularSpec.v
theories/SpecularProofs.v
theories/SpecularProps.v
theories/RefSys.v
theories/RefSysProps.v
theories/BBox.v
theories/BBoxIntegral.v
theories/BBoxSpec.v
theories/BBoxProofs.v
theories/BBoxProps.v
theories/Limit.v
theories/LimitSpec.v
theories/LimitProofs.v
theories/LimitProps.v
theories/Refine.v
theories/RefineSpec.v
theories/RefineProofs.v
theories/RefineProps.v
theories/Propagate.v
theories/PropagateSpec.v
theories/PropagateProofs.v
theories/PropagateProps.v
theories/Seeds.v
theories/SeedsSpec.v
theories/SeedsProofs.v
theories/SeedsProps.v
theories/MeshCheck.v
theories/MeshCheckSpec.v
theories/MeshCheckProofs.v
theories/MeshCheckProps.v
theories/Curve.v
theories/CurveSpec.v
theories/CurveProofs.v
theories/CurveProps.v
theories/Segment.v
theories/SegmentSpec.v
theories/SegmentProofs.v
theories/SegmentProps.v
theories/Partition.v
theories/PartitionSpec.v
theories/PartitionProofs.v
theories/PartitionProps.v
theories/Wavefront.v
theories/WavefrontSpec.v
theories/WavefrontProofs.v
theories/WavefrontWrite.v
theories/WavefrontProps.v
theories/WavefrontData.v
theories/WavefrontDataSpec.v
theories/WavefrontDataProps.v
theories/Foam.v
theories/FoamSpec.v
theories/FoamProps.v
theories/Nastran.v
theories/NastranSpec.v
theories/NastranProofs.v
theories/NastranProps.v
theories/GeomIo.v
theories/GeomIoSpec.v
theories/GeomIoProps.v
theories/FvSel.v
theories/FvSelSpec.v
theories/FvSelProofs.v
theories/FvSelProps.v
theories/MapSel.v
theories/MapSelSpec.v
theories/MapSelProps.v
theories/Cut.v
theories/CutProps.v
theories/Vtu.v
theories/VtuSpec.v
theories/VtuProofs.v
theories/VtuProps.v
theories/Cgns.v
theories/CgnsSpec.v
theories/CgnsProofs.v
theories/CgnsProps.v
theories/GenBlk.v
theories/GenBlkSpec.v
theories/GenBlkProps.v
theories/FvSten.v
theories/FvStenSpec.v
theories/FvStenProps.v
theories/Eik.v
theories/EikSpec.v
theories/EikProofs.v
theories/EikProps.v
theories/WfSet.v
theories/WfSetSpec.v
theories/WfSetProps.v
theories/SkdFind.v
theories/SkdFindSpec.v
theories/SkdFindProofs.v
theories/SkdFindProps.v
theories/UniSurf.v
theories/UniSurfSpec.v
theories/UniSurfProps.v
theories/IntNorm.v
theories/IntNormSpec.v
theories/IntNormProps.v
theories/BcShare.v
theories/BcShareSpec.v
theories/BcShareProps.v
theories/BlkId.v
theories/BlkIdSpec.v
theories/BlkIdProofs.v
theories/BlkIdProps.v
theories/PortEq.v
theories/PortEqSpec.v
theories/PortEqProps.v
theories/ModFld.v
theories/ModFldSpec.v
theories/ModFldProps.v
theories/PrimXml.v
theories/PrimXmlSpec.v
theories/PrimXmlProps.v
