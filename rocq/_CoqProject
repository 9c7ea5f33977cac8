-Q theories Verif
theories/Base.v
theories/BaseFacts.v
theories/CircuitModel.v
theories/CircuitSpec.v
theories/CircuitProofs.v
theories/CircuitProps.v
theories/MatModel.v
theories/MatFacts.v
theories/LiftModel.v
theories/LiftSpec.v
theories/LiftProofs.v
theories/Cplx.v
theories/GateMatModel.v
theories/GateMatSpec.v
theories/GateMatProofs.v
theories/GateMatProps.v
theories/DecompModel.v
theories/DecompSpec.v
theories/DecompProofs.v
theories/DecompProps.v
theories/WfModel.v
theories/WfSpec.v
theories/WfProofs.v
theories/WfProofs2.v
theories/WfProps.v
theories/BackendModel.v
theories/BackendSpec.v
theories/BackendProofs.v
theories/BackendProps.v
theories/Json.v
theories/UtilsModel.v
theories/UtilsSpec.v
theories/UtilsProofs.v
theories/UtilsProps.v
theories/DistModel.v
theories/DistSpec.v
theories/DistProofs.v
theories/DistProps.v
theories/MeasModel.v
theories/MeasSpec.v
theories/MeasProofs.v
theories/EvModel.v
theories/MeasProofs2.v
theories/MeasProps.v
theories/DistanceModel.v
theories/DistanceSpec.v
theories/DistanceProofs.v
theories/DistanceProps.v
theories/GateValueSpec.v
theories/GateValueProps.v
theories/CmpModel.v
theories/CmpProofs.v
theories/CmpProps.v
theories/SmallProps.v
theories/SerdeModel.v
theories/SerdeSpec.v
theories/SerdeProofs.v
theories/SerdeProps.v
theories/LayoutModel.v
theories/LayoutSpec.v
theories/LayoutProofs.v
theories/LayoutProps.v
theories/SymModel.v
theories/SymSpec.v
theories/SymProofs.v
theories/SymProps.v
theories/GaussZ.v
theories/OpModel.v
theories/OpSpec.v
theories/OpProofs.v
theories/PauliProofs.v
theories/OpProofs2.v
theories/OpProps.v
theories/OpProps2.v
theories/EstModel.v
theories/EstSpec.v
theories/EstProofs.v
theories/EstProofs2.v
theories/ConjProofs.v
theories/EstProofs3.v
theories/EstProofs4.v
theories/EstProofs5.v
theories/EstProps.v
theories/EstProps2.v
theories/FermiModel.v
theories/FermiSpec.v
theories/FermiProofs.v
theories/FermiProofs2.v
theories/FermiProofs3.v
theories/BKProofs.v
theories/FermiProofs4.v
theories/FermiProofs5.v
theories/PauliBasis.v
theories/FermiProofs6.v
theories/GaussQ.v
theories/FermiProofs7.v
theories/ReindexModel.v
theories/ReindexProofs.v
theories/ReindexProofs2.v
theories/FermiProps.v
theories/FermiProps2.v
theories/FermiProps3.v
theories/PauliExpModel.v
theories/PauliExpProofs.v
theories/PauliExpProps.v
theories/TensorModel.v
theories/TensorSpec.v
theories/TensorProofs.v
theories/TensorProps.v
theories/ConvModel.v
theories/ConvSpec.v
theories/ConvProofs.v
theories/TensorProps2.v
theories/ConvProps.v
theories/EvolModel.v
theories/EvolSpec.v
theories/EvolProofs.v
theories/EvolProofs2.v
theories/EvolProofs3.v
theories/EvolProofs4.v
theories/EvolProofs5.v
theories/EvolProofs6.v
theories/EvolProps.v
theories/HistModel.v
theories/HistSpec.v
theories/HistProofs.v
theories/HistProps.v
theories/HistProps2.v
theories/AugModel.v
theories/AugSpec.v
theories/AugProofs.v
theories/AugProps.v
theories/CostModel.v
theories/CostSpec.v
theories/CostProofs.v
theories/CostProps.v
theories/AnsatzModel.v
theories/AnsatzSpec.v
theories/AnsatzProofs.v
theories/AnsatzProps.v
theories/OptModel.v
theories/OptSpec.v
theories/OptProofs.v
theories/OptProps.v
theories/EncModel.v
theories/EncSpec.v
theories/EncProofs.v
theories/EncProps.v
theories/GraphModel.v
theories/GraphSpec.v
theories/GraphProofs.v
theories/GraphProps.v
theories/OpTextModel.v
theories/OpTextSpec.v
theories/OpTextProofs.v
theories/OpTextProofs2.v
theories/OpTextProofs3.v
theories/OpTextProps.v
theories/FreezeSpec.v
theories/FreezeProofs.v
theories/FreezeProofs2.v
theories/FreezeProps.v
theories/CommModel.v
theories/CommSpec.v
theories/CommProps.v
theories/RevJWModel.v
theories/RevJWSpec.v
theories/RevJWProofs.v
theories/RevJWProps.v
theories/HubbardModel.v
theories/HubbardSpec.v
theories/HubbardProofs.v
theories/HubbardProps.v
theories/DiagModel.v
theories/DiagSpec.v
theories/DiagProofs.v
theories/DiagProofs2.v
theories/DiagProps.v
theories/ActsProofs.v
theories/ActsProps.v
theories/DiagProps2.v
theories/JWInterModel.v
theories/JWInterSpec.v
theories/JWInterProofs.v
theories/JWInterProofs2.v
theories/JWInterProofs3.v
theories/JWInterProps.v
theories/SparseModel.v
theories/SparseProofs.v
theories/SparseProofs2.v
theories/SparseProofs3.v
theories/SparseProps.v
theories/SectorSpec.v
theories/SectorProofs.v
theories/SectorProofs2.v
theories/SectorProps.v
theories/SectorOpModel.v
theories/SectorOpSpec.v
theories/SectorOpProofs.v
theories/SectorOpProofs2.v
theories/SectorOpProofs3.v
theories/SectorOpProps.v
theories/MatRing.v
theories/UCCModel.v
theories/UCCSpec.v
theories/UCCProofs.v
theories/UCCProofs2.v
theories/UCCProofs3.v
theories/UCCProofs4.v
theories/UCCProofs5.v
theories/UCCProofs6.v
theories/UCCProps.v
theories/MolModel.v
theories/MolSpec.v
theories/MolProofs.v
theories/MolProofs2.v
theories/MolProofs3.v
theories/MolProofs4.v
theories/MolProofs5.v
theories/MolProofs6.v
theories/MolProofs7.v
theories/MolProofs8.v
theories/MolProofs9.v
theories/MolProps.v
theories/MolProps2.v
theories/RdmModel.v
theories/RdmSpec.v
theories/RdmProofs.v
theories/RdmProofs2.v
theories/RdmProofs3.v
theories/RdmProofs4.v
theories/RdmProofs5.v
theories/RdmProps.v
theories/RdmProps2.v
theories/RdmProps3.v
theories/RotModel.v
theories/RotSpec.v
theories/RotSpec2.v
theories/RotProofs.v
theories/RotProofs2.v
theories/RotProofs3.v
theories/RotProofs4.v
theories/RotProofs5.v
theories/RotProps.v
theories/RotProps2.v
theories/RotProps3.v
theories/BKInterModel.v
theories/BKInterSpec.v
theories/BKInterProofs.v
theories/BKInterProofs2.v
theories/BKInterProofs3.v
theories/BKInterProofs4.v
theories/BKInterProofs5.v
theories/BKInterProofs6.v
theories/BKInterProofs7.v
theories/BKInterProofs8.v
theories/BKInterProofs9.v
theories/BKInterProps.v
theories/QopUtilModel.v
theories/QopUtilSpec.v
theories/QopUtilProofs.v
theories/QopUtilProofs2.v
theories/QopUtilProofs3.v
theories/QopUtilProps.v
theories/MolIntModel.v
theories/MolIntSpec.v
theories/MolIntProofs.v
theories/MolIntProps.v
theories/NormModel.v
theories/NormSpec.v
theories/NormProofs.v
theories/NormProofs2.v
theories/NormProps.v
theories/CompatModel.v
theories/CompatSpec.v
theories/CompatProps.v
theories/CreateModel.v
theories/CreateProps.v
theories/RandCircModel.v
theories/RandCircSpec.v
theories/RandCircProps.v
theories/OpStepModel.v
theories/OpStepSpec.v
theories/HermTensorProps.v
theories/OpStepProps.v
theories/RandOpModel.v
theories/RandOpSpec.v
theories/RandOpProofs.v
theories/RandOpProps.v
theories/RandOpProps2.v
theories/RandWfModel.v
theories/RandWfProps.v
theories/BackendStepModel.v
theories/BackendStepSpec.v
theories/BackendStepProofs.v
theories/BackendStepProps.v
theories/BackendStepProps2.v
theories/BackendStepProps3.v
theories/MolFileModel.v
theories/MolFileSpec.v
theories/MolFileProofs.v
theories/MolFileProps.v
theories/MolFileProps2.v
theories/MolFileProps3.v
theories/CircStepModel.v
theories/CircStepProps.v
theories/OpFileModel.v
theories/OpFileSpec.v
theories/OpFileProofs.v
theories/OpFileProps.v
theories/ContractModel.v
theories/ContractSpec.v
theories/ContractProps.v
theories/ContractProps2.v
theories/ArtModel.v
theories/ArtSpec.v
theories/ArtProofs.v
theories/ArtProps.v
theories/ArtProps2.v
theories/GraphStepModel.v
theories/GraphStepProps.v
theories/BackendStepProps4.v
theories/EvalStepModel.v
theories/EvalStepSpec.v
theories/EvalStepProofs.v
theories/EvalStepProps.v
theories/EvalStepProps2.v
theories/EvalStepProps3.v
theories/EvalStepProps4.v
theories/EvalStepProps5.v
theories/RunStepModel.v
theories/RunStepSpec.v
theories/RunStepProps.v
theories/RunStepProps2.v
theories/RunStepProps3.v
theories/FuncModel.v
theories/FuncSpec.v
theories/FuncProofs.v
theories/FuncProps.v
theories/FuncProps2.v
theories/ExFunModel.v
theories/ExFunProps.v
theories/SpectrumModel.v
theories/SpectrumSpec.v
theories/SpectrumProps.v
theories/SpectrumProps2.v
theories/EqTestModel.v
theories/EqTestSpec.v
theories/EqTestProps.v
theories/VersionModel.v
theories/VersionSpec.v
theories/VersionProps.v
theories/SpectrumProps3.v
theories/MolConcModel.v
theories/MolConcSpec.v
theories/MolConcProofs.v
theories/MolConcInv.v
theories/MolConcProps.v
theories/MolConcProps2.v
theories/TrackFileModel.v
theories/TrackFileSpec.v
theories/TrackFileProps.v
theories/MolCopyModel.v
theories/MolCopyProps.v
theories/MolConcProps3.v
theories/GenCasesModel.v
theories/GenCasesSpec.v
theories/GenCasesProofs.v
theories/GenCasesProps.v
