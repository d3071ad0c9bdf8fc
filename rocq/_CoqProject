-Q theories Verif
theories/Base.v
theories/BaseProof.v
theories/SearchModel.v
theories/SearchSpec.v
theories/SearchProof.v
theories/SearchProof2.v
theories/SearchProps.v
theories/OrderModel.v
theories/OrderSpec.v
theories/OrderProof.v
theories/OrderProof2.v
theories/OrderProof3.v
theories/ListFacts.v
theories/OrderProof4.v
theories/OrderProof5.v
theories/OrderProps.v
theories/MutModel.v
theories/MutSpec.v
theories/MutProof.v
theories/MutProof2.v
theories/MutProof3.v
theories/MutProof4.v
theories/MutProps.v
theories/SetModel.v
theories/SetSpec.v
theories/SetProof.v
theories/SetProof2.v
theories/SetProof3.v
theories/SetProof4.v
theories/SetProps.v
theories/HeapModel.v
theories/ValFacts.v
theories/HeapProof.v
theories/HeapProof2.v
theories/HeapProps.v
theories/SortModel.v
theories/SortSpec.v
theories/SortProof.v
theories/SortProof2.v
theories/SortProof3.v
theories/SortProof4.v
theories/SortProof5.v
theories/SortProof6.v
theories/SortProps.v
theories/BitModel.v
theories/BitSpec.v
theories/BitProof.v
theories/BitProof2.v
theories/BitProof3.v
theories/BitProof4.v
theories/BitProof5.v
theories/BitProof6.v
theories/BitProps.v
theories/NumModel.v
theories/NumSpec.v
theories/NumProof.v
theories/NumProps.v
theories/ShaModel.v
theories/ShaSpec.v
theories/ShaProof.v
theories/ShaProof2.v
theories/ShaProps.v
theories/MdModel.v
theories/MdSpec.v
theories/MdProof.v
theories/MdProof2.v
theories/MdProps.v
theories/SumModel.v
theories/SumSpec.v
theories/SumProof.v
theories/SumProps.v
theories/ByteModel.v
theories/ByteSpec.v
theories/ByteProof.v
theories/ByteProps.v
theories/BfModel.v
theories/BfSpec.v
theories/BfProof.v
theories/BfProps.v
theories/StrModel.v
theories/StrSpec.v
theories/StrProof.v
theories/StrProof2.v
theories/StrProof3.v
theories/StrProps.v
theories/CharModel.v
theories/CharSpec.v
theories/CharProof.v
theories/CharProof2.v
theories/CharProps.v
theories/RatModel.v
theories/RatSpec.v
theories/RatProof.v
theories/RatProof2.v
theories/RatProof3.v
theories/RatProof4.v
theories/RatProof5.v
theories/RatProps.v
theories/LcgModel.v
theories/LcgSpec.v
theories/LcgProof.v
theories/LcgProof2.v
theories/LcgProof3.v
theories/LcgProps.v
theories/MtModel.v
theories/MtSpec.v
theories/MtProof.v
theories/MtProof2.v
theories/MtProps.v
theories/LfsrModel.v
theories/LfsrSpec.v
theories/LfsrProof.v
theories/LfsrProps.v
theories/UniModel.v
theories/UniSpec.v
theories/UniProof.v
theories/UniProof2.v
theories/UniProps.v
theories/BsModel.v
theories/BsSpec.v
theories/BsProof.v
theories/BsProof2.v
theories/BsProof3.v
theories/BsProof4.v
theories/BsProps.v
theories/BstrModel.v
theories/BstrSpec.v
theories/BstrProof.v
theories/BstrProof2.v
theories/BstrProof3.v
theories/BstrProps.v
theories/FixModel.v
theories/FixSpec.v
theories/FixProof.v
theories/FixProof2.v
theories/FixProof3.v
theories/FixProof4.v
theories/FixProof5.v
theories/FixProof6.v
theories/FixProps.v
theories/UuidModel.v
theories/UuidSpec.v
theories/UuidProof.v
theories/UuidProof2.v
theories/UuidProps.v
theories/ItModel.v
theories/ItSpec.v
theories/ItProof.v
theories/ItProof2.v
theories/ItProof3.v
theories/ItProps.v
theories/SvModel.v
theories/SvSpec.v
theories/SvProof.v
theories/SvProps.v
theories/DateModel.v
theories/DateSpec.v
theories/DateProof.v
theories/DateProps.v
theories/WordModel.v
theories/WordSpec.v
theories/WordProof.v
theories/WordProof2.v
theories/WordProps.v
theories/ValModel.v
theories/ValSpec.v
theories/ValProof.v
theories/ValProof2.v
theories/ValProof3.v
theories/ValProps.v
theories/OptModel.v
theories/OptSpec.v
theories/OptProof.v
theories/OptProps.v
theories/WeedModel.v
theories/WeedSpec.v
theories/WeedProof.v
theories/WeedProof2.v
theories/WeedProof3.v
theories/WeedProps.v
theories/FltModel.v
theories/FltSpec.v
theories/FltProof.v
theories/FltProof2.v
theories/FltProof3.v
theories/FltProof4.v
theories/FltProof5.v
theories/FltProps.v
theories/ClistModel.v
theories/ClistSpec.v
theories/ClistProof.v
theories/ClistProof2.v
theories/ClistProps.v
theories/CqModel.v
theories/CqSpec.v
theories/CqProof.v
theories/CqProps.v
theories/FftModel.v
theories/FftSpec.v
theories/FftProof.v
theories/FftProof2.v
theories/FftProof3.v
theories/FftProof4.v
theories/FftProof5.v
theories/FftProps.v
theories/SarrModel.v
theories/SarrSpec.v
theories/SarrProof.v
theories/SarrProof2.v
theories/SarrProps.v
theories/SmpModel.v
theories/SmpSpec.v
theories/SmpProof.v
theories/SmpProof2.v
theories/SmpProof3.v
theories/SmpProps.v
theories/JoinModel.v
theories/JoinSpec.v
theories/JoinProof.v
theories/JoinProof2.v
theories/JoinProof3.v
theories/JoinProps.v
theories/TypModel.v
theories/TypSpec.v
theories/TypProof.v
theories/TypProof2.v
theories/TypProps.v
theories/RmkModel.v
theories/RmkSpec.v
theories/RmkProof.v
theories/RmkProps.v
theories/IdxModel.v
theories/IdxSpec.v
theories/IdxProof.v
theories/IdxProps.v
theories/OokModel.v
theories/OokSpec.v
theories/OokProof.v
theories/OokProps.v
theories/SeedModel.v
theories/SeedSpec.v
theories/SeedProof.v
theories/SeedProps.v
theories/DrawModel.v
theories/DrawSpec.v
theories/DrawProof.v
theories/DrawProps.v
theories/TblModel.v
theories/TblSpec.v
theories/TblData.v
theories/TblProof.v
theories/TblProps.v
theories/FitModel.v
theories/FitSpec.v
theories/FitProof.v
theories/FitProps.v
theories/StfModel.v
theories/StfSpec.v
theories/StfProof.v
theories/StfProps.v
theories/CrvModel.v
theories/CrvSpec.v
theories/CrvProof.v
theories/CrvProps.v
theories/VecModel.v
theories/VecSpec.v
theories/VecProof.v
theories/VecProps.v
theories/SphModel.v
theories/SphSpec.v
theories/SphProof.v
theories/SphProps.v
theories/PlnModel.v
theories/PlnProof.v
theories/PlnProps.v
theories/TriModel.v
theories/TriProof.v
theories/TriProps.v
