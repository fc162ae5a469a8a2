-Q theories Verif
theories/Base.v
theories/IndexModel.v
theories/IndexSpec.v
theories/IndexProofs.v
theories/IndexProperties.v
theories/VecModel.v
theories/VecSpec.v
theories/VecProofs.v
theories/VecProofs2.v
theories/VecProperties.v
theories/ViewModel.v
theories/ViewSpec.v
theories/ViewProofs.v
theories/ViewProperties.v
theories/OrderModel.v
theories/OrderSpec.v
theories/OrderProofs.v
theories/OrderProofs2.v
theories/OrderProofs3.v
theories/OrderProperties.v
theories/AstarModel.v
theories/AstarSpec.v
theories/AstarProofs.v
theories/AstarProperties.v
theories/ReduceModel.v
theories/ReduceSpec.v
theories/ReduceProofs.v
theories/ReduceProofs2.v
theories/ReduceProofs3.v
theories/ReduceProperties.v
theories/InterpModel.v
theories/InterpSpec.v
theories/InterpProofs.v
theories/InterpProperties.v
theories/IntegModel.v
theories/IntegSpec.v
theories/IntegProofs.v
theories/IntegProofs2.v
theories/IntegProofs3.v
theories/IntegProperties.v
theories/HistModel.v
theories/HistSpec.v
theories/HistProofs.v
theories/HistProofs2.v
theories/HistProperties.v
theories/StrModel.v
theories/StrSpec.v
theories/StrProofs.v
theories/StrProofs2.v
theories/StrProofs3.v
theories/StrProperties.v
theories/Sha1Model.v
theories/Sha1Spec.v
theories/Sha1Proofs.v
theories/Sha1Proofs2.v
theories/Sha1Proofs3.v
theories/Sha1Properties.v
theories/PathModel.v
theories/PathProofs.v
theories/PathProperties.v
theories/QueueModel.v
theories/QueueSpec.v
theories/QueueProofs.v
theories/QueueProofs2.v
theories/QueueProperties.v
theories/WorkerModel.v
theories/WorkerSpec.v
theories/WorkerProofs.v
theories/WorkerProperties.v
theories/PoolModel.v
theories/PoolSpec.v
theories/PoolProofs.v
theories/PoolProofs2.v
theories/PoolProperties.v
theories/ParforModel.v
theories/ParforSpec.v
theories/ParforProofs.v
theories/ParforProperties.v
theories/ImageModel.v
theories/ImageSpec.v
theories/ImageProofs.v
theories/ImageProofs2.v
theories/ImageProofs3.v
theories/ImageProofs4.v
theories/ImageProofs5.v
theories/ImageProperties.v
theories/SegModel.v
theories/SegSpec.v
theories/SegProofs.v
theories/SegProofs2.v
theories/SegProofs3.v
theories/SegProofs4.v
theories/SegProperties.v
theories/MatModel.v
theories/MatSpec.v
theories/MatProofs.v
theories/MatProofs2.v
theories/MatProofs3.v
theories/MatProofs4.v
theories/MatProofs5.v
theories/MatProofs6.v
theories/MatProofs7.v
theories/MatProofs8.v
theories/MatProperties.v
theories/HullModel.v
theories/HullSpec.v
theories/HullProofs.v
theories/HullProofs2.v
theories/HullProofs3.v
theories/HullProofs4.v
theories/HullProofs5.v
theories/HullProperties.v
theories/XmatchModel.v
theories/XmatchSpec.v
theories/XmatchProofs.v
theories/XmatchProofs2.v
theories/XmatchProofs3.v
theories/XmatchProofs4.v
theories/XmatchProperties.v
theories/XbuckModel.v
theories/XbuckSpec.v
theories/XbuckProofs.v
theories/XbuckProofs2.v
theories/XbuckProofs3.v
theories/XbuckProperties.v
theories/OpModel.v
theories/OpSpec.v
theories/OpProofs.v
theories/OpProofs2.v
theories/OpProperties.v
theories/SplineModel.v
theories/SplineSpec.v
theories/SplineProofs.v
theories/SplineProofs2.v
theories/SplineProofs3.v
theories/SplineProofs4.v
theories/SplineProofs5.v
theories/SplineProperties.v
theories/BilinModel.v
theories/BilinSpec.v
theories/BilinProofs.v
theories/BilinProperties.v
theories/GenModel.v
theories/GenSpec.v
theories/GenProofs.v
theories/GenProofs2.v
theories/GenProperties.v
theories/StrideModel.v
theories/StrideSpec.v
theories/StrideProofs.v
theories/StrideProperties.v
theories/ConvModel.v
theories/ConvSpec.v
theories/ConvProofs.v
theories/ConvProperties.v
theories/AsciiModel.v
theories/AsciiSpec.v
theories/AsciiProofs.v
theories/AsciiProofs2.v
theories/AsciiProofs3.v
theories/AsciiProofs4.v
theories/AsciiProofs5.v
theories/AsciiProofs6.v
theories/AsciiProofs7.v
theories/AsciiProofs8.v
theories/AsciiProperties.v
theories/AsciiProperties2.v
theories/LinfitModel.v
theories/LinfitSpec.v
theories/LinfitProofs.v
theories/LinfitProofs2.v
theories/LinfitProofs3.v
theories/LinfitProofs4.v
theories/LinfitProofs5.v
theories/LinfitProofs6.v
theories/LinfitProofs7.v
theories/LinfitProperties.v
theories/LinfitProperties2.v
theories/ArgvModel.v
theories/ArgvSpec.v
theories/ArgvProofs.v
theories/ArgvProofs2.v
theories/ArgvProofs3.v
theories/ArgvProofs4.v
theories/ArgvProofs5.v
theories/ArgvProperties.v
theories/NumModel.v
theories/NumSpec.v
theories/NumProofs.v
theories/NumProperties.v
theories/MacroModel.v
theories/MacroSpec.v
theories/MacroProofs.v
theories/MacroProperties.v
theories/TimeModel.v
theories/TimeSpec.v
theories/TimeProofs.v
theories/TimeProperties.v
theories/DirModel.v
theories/DirSpec.v
theories/DirProofs.v
theories/DirProofs2.v
theories/DirProperties.v
theories/RealModel.v
theories/RealSpec.v
theories/RealProofs.v
theories/RealProofs2.v
theories/RealProofs3.v
theories/RealProofs4.v
theories/RealProperties.v
theories/SexModel.v
theories/SexSpec.v
theories/SexProofs.v
theories/SexProofs2.v
theories/SexProperties.v
theories/HdistModel.v
theories/HdistProofs.v
theories/HdistSpec.v
theories/HdistProofs2.v
theories/HdistProofs3.v
theories/HdistProperties.v
theories/HdistProperties2.v
theories/QstackModel.v
theories/QstackSpec.v
theories/QstackProofs.v
theories/QstackProofs2.v
theories/QstackProofs3.v
theories/QstackProofs4.v
theories/QstackProofs5.v
theories/QstackProperties.v
theories/CatmergeModel.v
theories/CatmergeSpec.v
theories/CatmergeProofs.v
theories/CatmergeProofs2.v
theories/CatmergeProofs3.v
theories/CatmergeProperties.v
theories/XthreadModel.v
theories/XthreadSpec.v
theories/XthreadProofs.v
theories/XthreadProofs2.v
theories/XthreadProperties.v
theories/TfitModel.v
theories/TfitSpec.v
theories/TfitProofs.v
theories/TfitProperties.v
theories/MfitModel.v
theories/MfitSpec.v
theories/MfitProofs.v
theories/MfitProofs2.v
theories/MfitProofs3.v
theories/MfitProofs4.v
theories/MfitProofs5.v
theories/MfitProperties.v
theories/CmaskModel.v
theories/CmaskSpec.v
theories/CmaskProofs.v
theories/CmaskProofs2.v
theories/CmaskProofs3.v
theories/CmaskProperties.v
theories/DsregModel.v
theories/DsregSpec.v
theories/DsregProofs.v
theories/DsregProofs2.v
theories/DsregProperties.v
theories/RombModel.v
theories/RombSpec.v
theories/RombProofs.v
theories/RombProofs2.v
theories/RombProperties.v
theories/SdistModel.v
theories/SdistSpec.v
theories/SdistProofs.v
theories/SdistProofs2.v
theories/SdistProperties.v
theories/DblendModel.v
theories/DblendSpec.v
theories/DblendProofs.v
theories/DblendProofs2.v
theories/DblendProofs3.v
theories/DblendProofs4.v
theories/DblendProofs5.v
theories/DblendProofs6.v
theories/DblendProperties.v
theories/DrizModel.v
theories/DrizSpec.v
theories/DrizSpec2.v
theories/DrizProofs.v
theories/DrizProofs2.v
theories/DrizProofs3.v
theories/DrizProofs4.v
theories/DrizProofs5.v
theories/DrizProofs6.v
theories/DrizProofs7.v
theories/DrizProofs8.v
theories/DrizProofs9.v
theories/DrizProofs10.v
theories/DrizProofs11.v
theories/DrizProofs12.v
theories/DrizProofs13.v
theories/DrizProperties.v
theories/RegridModel.v
theories/RegridSpec.v
theories/RegridProofs.v
theories/RegridProofs2.v
theories/RegridProperties.v
theories/TransfModel.v
theories/TransfSpec.v
theories/TransfProofs.v
theories/TransfProofs2.v
theories/TransfProperties.v
theories/CutModel.v
theories/CutSpec.v
theories/CutProofs.v
theories/CutProperties.v
theories/KeyModel.v
theories/KeySpec.v
theories/KeyProofs.v
theories/KeyProperties.v
theories/HdrModel.v
theories/HdrSpec.v
theories/HdrProofs.v
theories/HdrProofs2.v
theories/HdrProperties.v
theories/FluxModel.v
theories/FluxSpec.v
theories/FluxProofs.v
theories/FluxProperties.v
theories/NormModel.v
theories/NormSpec.v
theories/NormProofs.v
theories/NormProperties.v
theories/UnitModel.v
theories/UnitProperties.v
theories/RandModel.v
theories/RandSpec.v
theories/RandProofs.v
theories/RandProofs2.v
theories/RandProperties.v
theories/RandintModel.v
theories/RandintSpec.v
theories/RandintProofs.v
theories/RandintProperties.v
theories/FilterdbModel.v
theories/FilterdbSpec.v
theories/FilterdbProofs.v
theories/FilterdbProperties.v
theories/PsfModel.v
theories/PsfProofs.v
theories/PsfProofs2.v
theories/PsfProofs3.v
theories/PsfProperties.v
theories/PsfProperties2.v
theories/AngModel.v
theories/AngSpec.v
theories/AngProofs.v
theories/AngProperties.v
theories/CosmoModel.v
theories/CosmoSpec.v
theories/CosmoProofs.v
theories/CosmoProperties.v
theories/TblModel.v
theories/TblSpec.v
theories/TblProofs.v
theories/TblProofs2.v
theories/TblProofs3.v
theories/TblProperties.v
theories/TblProperties2.v
theories/FimgModel.v
theories/FimgSpec.v
theories/FimgProofs.v
theories/FimgProofs2.v
theories/FimgProofs3.v
theories/FimgProofs4.v
theories/FimgProperties.v
theories/WcshModel.v
theories/WcshSpec.v
theories/WcshProofs.v
theories/WcshProofs2.v
theories/WcshProperties.v
theories/FfileModel.v
theories/FfileSpec.v
theories/FfileProofs.v
theories/FfileProperties.v
theories/FfileProofs2.v
theories/FfileProperties2.v
theories/AstwModel.v
theories/AstwSpec.v
theories/AstwProofs.v
theories/AstwProperties.v
theories/AstwProofs2.v
theories/AstwProperties2.v
theories/RegModel.v
theories/RegSpec.v
theories/RegProofs.v
theories/RegProperties.v
theories/CureModel.v
theories/CureSpec.v
theories/CureProofs.v
theories/CureProperties.v
theories/SphModel.v
theories/SphSpec.v
theories/SphProofs.v
theories/SphProperties.v
theories/SectModel.v
theories/SectSpec.v
theories/SectProofs.v
theories/SectProperties.v
theories/PsfmModel.v
theories/PsfmSpec.v
theories/PsfmProofs.v
theories/PsfmProperties.v
theories/ProgModel.v
theories/ProgSpec.v
theories/ProgProofs.v
theories/ProgProperties.v
theories/BootModel.v
theories/BootSpec.v
theories/BootProofs.v
theories/BootProofs2.v
theories/BootProperties.v
theories/UtestModel.v
theories/UtestSpec.v
theories/UtestProperties.v
theories/PrettyModel.v
theories/PrettySpec.v
theories/PrettyProofs.v
theories/PrettyProperties.v
theories/SconvModel.v
theories/SconvSpec.v
theories/SconvProperties.v
theories/KwModel.v
theories/KwSpec.v
theories/KwProperties.v
theories/PickModel.v
theories/PickSpec.v
theories/PickProperties.v
theories/MinimModel.v
theories/MinimProperties.v
