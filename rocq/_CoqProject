-Q theories Verif
theories/AstGenProps.v
theories/AstMatch.v
theories/AstMatch2.v
theories/AstMatch3.v
theories/AstModel.v
theories/AstProofs.v
theories/AstProofs2.v
theories/AstProofs3.v
theories/AstProofs4.v
theories/AstProps.v
theories/AstSpec.v
theories/AstSpec2.v
theories/AttrModel.v
theories/AttrProps.v
theories/AttrSpec.v
theories/CItemConvProps.v
theories/CItemExamples.v
theories/CItemInstProps.v
theories/CItemModel.v
theories/CItemProofs.v
theories/CItemProofs2.v
theories/CItemProofs3.v
theories/CItemProps.v
theories/CItemRegProps.v
theories/CItemRustProps.v
theories/CallModel.v
theories/CallProofs.v
theories/CallProps.v
theories/CallSpec.v
theories/CbLifeProps.v
theories/CbModel.v
theories/CbProofs.v
theories/CbProps.v
theories/CbSpec.v
theories/CellModel.v
theories/CellProps.v
theories/CellSpec.v
theories/ClassModel.v
theories/ClassProofs.v
theories/ClassProps.v
theories/ClassSpec.v
theories/CppBodyProofs.v
theories/CppCbTextExamples.v
theories/CppCbTextModel.v
theories/CppCbTextProps.v
theories/CppCbTextSpec.v
theories/CppClassProps.v
theories/CppHeaderProps.v
theories/CppLifeModel.v
theories/CppLifeProofs.v
theories/CppLifeProps.v
theories/CppMemModel.v
theories/CppMemProofs.v
theories/CppStrProps.v
theories/CppTextExamples.v
theories/CppTextModel.v
theories/CppTextProofs.v
theories/CppTextProps.v
theories/CppTextSpec.v
theories/CppVecProofs.v
theories/CppVecProps.v
theories/CppVecSpec.v
theories/EnumFileExamples.v
theories/EnumFileProps.v
theories/EnumTextModel.v
theories/EnumTextProps.v
theories/EnumTextSpec.v
theories/ErrModel.v
theories/ErrProps.v
theories/ErrSpec.v
theories/FenceBody.v
theories/FenceFile.v
theories/FenceModel.v
theories/FenceProps.v
theories/FenceSpec.v
theories/FilesModel.v
theories/FilesProofs.v
theories/FilesProps.v
theories/FullModel.v
theories/FullProofs.v
theories/FullProps.v
theories/GraphModel.v
theories/GraphProofs.v
theories/GraphSpec.v
theories/InitModel.v
theories/InitProps.v
theories/InitSpec.v
theories/InstModel.v
theories/InstPlain.v
theories/InstProofs.v
theories/InstProofs2.v
theories/InstProps.v
theories/InstRuleProps.v
theories/InstSpec.v
theories/ItemEnum.v
theories/ItemEnumExamples.v
theories/ItemEnumProps.v
theories/ItemExamples.v
theories/ItemModel.v
theories/ItemProofs.v
theories/ItemProofs2.v
theories/ItemProps.v
theories/JCbExamples.v
theories/JCbModel.v
theories/JCbProps.v
theories/JCbSpec.v
theories/JIfaceExamples.v
theories/JIfaceModel.v
theories/JIfaceProps.v
theories/JRefModel.v
theories/JRefProofs.v
theories/JRefProps.v
theories/JavaCbModel.v
theories/JavaCbProps.v
theories/JavaLifeModel.v
theories/JavaLifeProofs.v
theories/JavaLifeProps.v
theories/JavaTextFile.v
theories/JavaTextModel.v
theories/JavaTextProofs.v
theories/JavaTextProps.v
theories/JavaTextSpec.v
theories/JavaTextUse.v
theories/JniCacheProps.v
theories/JniModel.v
theories/JniProofs.v
theories/JniProofs2.v
theories/JniProofs3.v
theories/JniProps.v
theories/JniSpec.v
theories/LockLive.v
theories/LockModel.v
theories/LockProps.v
theories/LockSpec.v
theories/MacroModel.v
theories/MacroProofs.v
theories/MacroProofs2.v
theories/MacroProps.v
theories/MacroSpec.v
theories/MapConvProps.v
theories/MapExamples.v
theories/MapModel.v
theories/MapProofs.v
theories/MapProps.v
theories/MapTMap.v
theories/MapTMapProofs.v
theories/MergeAcceptProps.v
theories/MergeErrProps.v
theories/MergeExamples.v
theories/MergeMadeProps.v
theories/MergeModel.v
theories/MergeProofs.v
theories/MergeProofs2.v
theories/MergeProps.v
theories/MergeRuleProps.v
theories/NamesModel.v
theories/NamesProofs.v
theories/NamesProps.v
theories/NestModel.v
theories/NestProofs.v
theories/NestProps.v
theories/NestSpec.v
theories/OptModel.v
theories/OptProps.v
theories/OptSpec.v
theories/ParseModel.v
theories/ParseOrder.v
theories/ParseProofs.v
theories/ParseProofs2.v
theories/ParseProofs3.v
theories/ParseProofs4.v
theories/ParseProofs5.v
theories/ParseProps.v
theories/ParseSpec.v
theories/PyExamples.v
theories/PyGenProps.v
theories/PyModel.v
theories/PyProofs.v
theories/PyProofs2.v
theories/PyProofs3.v
theories/PyProofs4.v
theories/PyProofs5.v
theories/PyProofs6.v
theories/PyProps.v
theories/PyProps2.v
theories/PySpec.v
theories/RefExact.v
theories/RefModel.v
theories/RefProps.v
theories/RefSpec.v
theories/RegClassProps.v
theories/RegExamples.v
theories/RegModel.v
theories/RegProofs.v
theories/RegProofs2.v
theories/RegProofs3.v
theories/RegProofs4.v
theories/RegProofs5.v
theories/RegProps.v
theories/RegRefProps.v
theories/RegUse.v
theories/RegUseProps.v
theories/RuntimeModel.v
theories/RuntimeProps.v
theories/Str.v
theories/SymModel.v
theories/SymProps.v
theories/TMapModel.v
theories/TMapProofs.v
theories/TMapProofs2.v
theories/TMapProofs3.v
theories/TMapProofs4.v
theories/TMapProps.v
theories/TextModel.v
theories/TextProofs.v
theories/TextProofs2.v
theories/TextProps.v
theories/TextSpec.v
theories/TmapCodeProofs.v
theories/TmapCodeProps.v
theories/TmapCodeSpec.v
theories/TmapExamples.v
theories/TmapModel.v
theories/TmapProofs.v
theories/TmapProofs2.v
theories/TmapProofs3.v
theories/TmapProps.v
theories/TmapSpec.v
theories/ViewModel.v
theories/ViewProps.v
theories/ViewSpec.v
