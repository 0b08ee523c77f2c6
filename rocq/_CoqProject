-Q theories Verif
theories/Base.v
theories/Bits.v
theories/BitStream.v
theories/BitsProofs.v
theories/Contracts.v
theories/BitStreamProofs.v
theories/BitStreamProofs2.v
theories/BitStreamProofs3.v
theories/Ints.v
theories/IntsProofs.v
theories/SafeProofs.v
theories/History.v
theories/HistoryProofs.v
theories/RangeProofs.v
theories/TameProofs.v
theories/StrSpec.v
theories/Octets.v
theories/Parse.v
theories/ParseProofs.v
theories/OctetsProofs.v
theories/OctetsProofs2.v
theories/Properties1Proofs.v
theories/Properties1.v
theories/Properties2Proofs.v
theories/Properties2.v
theories/Misc.v
theories/MiscProofs.v
theories/OidSpec.v
theories/Oid.v
theories/OidProofs.v
theories/Properties3Proofs.v
theories/Properties3.v
theories/RealSpec.v
theories/RealC.v
theories/FloatProofs.v
theories/RealProofs.v
theories/Properties5Proofs.v
theories/Properties5.v
theories/UperTypes.v
theories/UperSpec.v
theories/Uper.v
theories/UperWf.v
theories/UperProofs1.v
theories/UperProofs2.v
theories/UperProofs3.v
theories/UperSizes.v
theories/UperClasses.v
theories/UperProofs4.v
theories/UperShape.v
theories/UperProofs5.v
theories/UperProofs6.v
theories/UperProofs7.v
theories/UperProofs8.v
theories/Properties4Proofs.v
theories/Properties4.v
theories/AcnSpec.v
theories/Acn.v
theories/AcnStr.v
theories/AcnReal.v
theories/AcnProofs1.v
theories/AcnProofs2.v
theories/AcnProofs3.v
theories/AcnProofs4.v
theories/AcnProofs5.v
theories/AcnProofs6.v
theories/AcnProofs7.v
theories/Properties6Proofs.v
theories/Properties6.v
theories/ConSpec.v
theories/Constraints.v
theories/ConstraintsProofs.v
theories/Validate.v
theories/ValidSpec.v
theories/ValidateProofs.v
theories/Pipeline.v
theories/PipelineProofs.v
theories/Properties7Proofs.v
theories/Properties7.v
theories/ByteStream.v
theories/ByteStreamProofs.v
theories/BerSpec.v
theories/Ber.v
theories/BerProofs.v
theories/BerProofs2.v
theories/BerProofs3.v
theories/BerProofs4.v
theories/BerProofs5.v
theories/Properties8Proofs.v
theories/Properties8.v
theories/XerSpec.v
theories/Xer.v
theories/XerProofs.v
theories/XerProofs2.v
theories/XerProofs3.v
theories/XerProofs4.v
theories/XerProofs5.v
theories/XerProofs6.v
theories/Properties9Proofs.v
theories/Properties9.v
theories/XerGen.v
theories/XerGenSpec.v
theories/XerGenProofs.v
theories/XerGenProofs2.v
theories/XerGenProofs3.v
theories/XerGenProofs4.v
theories/XerGenProofs5.v
theories/Properties10Proofs.v
theories/Properties10.v
theories/Streaming.v
theories/StreamingSpec.v
theories/StreamingProofs.v
theories/StreamingProofs2.v
theories/StreamingProofs3.v
theories/StreamingProofs4.v
theories/StreamingProofs5.v
theories/StreamingProofs6.v
theories/StreamingProofs7.v
theories/Properties11Proofs.v
theories/Properties11.v
theories/AcnGen.v
theories/AcnGenSpec.v
theories/AcnGenSizes.v
theories/AcnGenProofs1.v
theories/AcnGenProofs2.v
theories/AcnGenProofs3.v
theories/AcnGenProofs4.v
theories/AcnGenProofs5.v
theories/AcnGenProofs6.v
theories/Properties12Proofs.v
theories/Properties12.v
theories/AcnGenShape.v
theories/AcnGenProofs7.v
theories/Properties13Proofs.v
theories/Properties13.v
theories/AcnGenParse.v
theories/AcnGenProofs8.v
theories/Properties14Proofs.v
theories/Properties14.v
theories/Init.v
theories/InitSpec.v
theories/InitProofs.v
theories/Properties15.v
theories/Equal.v
theories/EqualSpec.v
theories/EqualProofs.v
theories/Properties16.v
theories/UperCanon.v
theories/UperCanonProofs.v
theories/Properties17Proofs.v
theories/Properties17.v
theories/AcnCanon.v
theories/AcnCanonProofs.v
theories/AcnCanonProofs2.v
theories/AcnCanonProofs3.v
theories/Properties18Proofs.v
theories/Properties18.v
theories/AcnEncClass.v
theories/AcnEncClassProofs.v
theories/Properties19Proofs.v
theories/Properties19.v
theories/Topo.v
theories/TopoSpec.v
theories/TopoProofs.v
theories/Properties20.v
theories/EnumNum.v
theories/EnumNumSpec.v
theories/EnumNumProofs.v
theories/Properties21Proofs.v
theories/Properties21.v
theories/Tags.v
theories/TagsSpec.v
theories/TagsProofs.v
theories/Properties22.v
theories/AcnExpr.v
theories/CExpr.v
theories/AcnExprSeq.v
theories/AcnExprSpec.v
theories/CExprProofs.v
theories/AcnExprProofs.v
theories/AcnExprProofs2.v
theories/AcnExprProofs3.v
theories/Properties23.v
theories/Names.v
theories/NamesSpec.v
theories/NamesProofs.v
theories/NamesProofs2.v
theories/NamesProofs3.v
theories/NamesProofs4.v
theories/NamesProofs5.v
theories/Properties24.v
theories/CInit.v
theories/Consts.v
theories/ConstsSpec.v
theories/ConstsProofs.v
theories/ConstsProofs2.v
theories/ConstsProofs3.v
theories/ConstsProofs4.v
theories/ConstsProofs5.v
theories/ConstsProofs6.v
theories/ConstsProofs7.v
theories/ConstsProofs8.v
theories/Properties25.v
theories/Params.v
theories/ParamsSpec.v
theories/ParamsProofs.v
theories/ParamsProofs2.v
theories/ParamsProofs3.v
theories/ParamsProofs4.v
theories/ParamsProofs5.v
theories/ParamsProofs6.v
theories/Properties26.v
theories/Check.v
theories/CheckSpec.v
theories/CheckProofs.v
theories/CheckProofs2.v
theories/CheckProofs3.v
theories/CheckProofs4.v
theories/CheckProofs5.v
theories/CheckProofs6.v
theories/Properties27.v
theories/TypeNames.v
theories/TypeNamesSpec.v
theories/TypeNamesProofs.v
theories/TypeNamesProofs2.v
theories/TypeNamesProofs3.v
theories/Properties28.v
theories/Resolve.v
theories/ResolveSpec.v
theories/ResolveProofs.v
theories/ResolveProofs2.v
theories/Properties29.v
theories/Time.v
theories/TimeSpec.v
theories/TimeProofs.v
theories/TimeProofs2.v
theories/Properties30.v
theories/TimeClass.v
theories/TimeClassSpec.v
theories/TimeClassProofs.v
theories/TimeClassProofs2.v
theories/Properties31.v
theories/Modules.v
theories/ModulesSpec.v
theories/ModulesProofs.v
theories/ModulesProofs2.v
theories/Properties32.v
theories/ConAllowed.v
theories/ConAllowedSpec.v
theories/ConAllowedProofs.v
theories/Properties33.v
theories/FieldNames.v
theories/FieldNamesSpec.v
theories/FieldNamesProofs.v
theories/FieldNamesProofs2.v
theories/Properties34.v
theories/TypeEquiv.v
theories/TypeEquivSpec.v
theories/TypeEquivProofs.v
theories/Properties35.v
