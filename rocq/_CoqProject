-Q theories Verif
theories/Cpp.v
theories/BitsetModel.v
theories/BitsetSpec.v
theories/BitsetProofs.v
theories/BitsetIoModel.v
theories/BitsetIoProofs.v
theories/BitsetProps.v
theories/VectorModel.v
theories/VectorSpec.v
theories/VectorMem.v
theories/VectorProofs.v
theories/VectorOps.v
theories/VectorOps2.v
theories/VectorOps3.v
theories/VectorHistory.v
theories/VectorExtra.v
theories/VectorProps.v
theories/StringModel.v
theories/StringSpec.v
theories/StringMem.v
theories/StringRep.v
theories/StringOps.v
theories/StringOps2.v
theories/StringOps3.v
theories/StringHistory.v
theories/StringExtra.v
theories/StringLimits.v
theories/StringOrder.v
theories/StringOrderProofs.v
theories/StringProps.v
theories/OrderSpec.v
theories/OrderModel.v
theories/OrderProofs.v
theories/OrderProps.v
theories/OptionalModel.v
theories/OptionalSpec.v
theories/OptionalProofs.v
theories/OptionalProps.v
theories/VariantModel.v
theories/VariantSpec.v
theories/VariantProofs.v
theories/VariantProps.v
theories/VariantRefModel.v
theories/VariantRefSpec.v
theories/VariantRefProofs.v
theories/VariantRefProps.v
theories/OptionalRefModel.v
theories/OptionalRefSpec.v
theories/OptionalRefProofs.v
theories/OptionalRefProps.v
theories/OptionalRefCtor.v
theories/OptionalRefCtorProps.v
theories/FunctionRefModel.v
theories/FunctionRefSpec.v
theories/FunctionRefProofs.v
theories/FunctionRefProps.v
theories/FunctionRefCtor.v
theories/FunctionRefCtorProps.v
theories/IterModel.v
theories/IterSpec.v
theories/IterProofs.v
theories/ViewModel.v
theories/ArrayRefModel.v
theories/ArrayRefSpec.v
theories/ArrayRefProofs.v
theories/ArrayRefProps.v
theories/StringRefModel.v
theories/StringRefSpec.v
theories/StringRefProofs.v
theories/StringRefProps.v
theories/VectorIter.v
theories/StringIter.v
theories/IterProps.v
theories/VectorIterProps.v
theories/StringIterProps.v
theories/ArrayModel.v
theories/ArraySpec.v
theories/ArrayProofs.v
theories/ArrayProps.v
theories/ArrayCtor.v
theories/ArrayCtorProps.v
theories/TupleModel.v
theories/TupleSpec.v
theories/TupleProofs.v
theories/TupleProps.v
theories/TupleCtor.v
theories/TupleCtorProps.v
theories/LayoutModel.v
theories/LayoutSpec.v
theories/LayoutProofs.v
theories/LayoutProps.v
theories/VisitModel.v
theories/Overload.v
theories/VisitProps.v
theories/VariantEmplace.v
theories/VariantEmplaceProps.v
theories/ArrayRefCtor.v
theories/ArrayRefCtorProps.v
theories/OptionalAssign.v
theories/OptionalAssignProps.v
theories/InitModel.v
theories/InitProps.v
theories/CompareCalls.v
theories/CompareCallsProps.v
theories/OutModel.v
theories/OutProps.v
theories/BindingModel.v
theories/BindingProps.v
theories/TextModel.v
theories/TextProps.v
theories/RangeModel.v
theories/RangeProps.v
theories/FunctionArgs.v
theories/FunctionArgsProps.v
theories/ElementModel.v
theories/ElementSpec.v
theories/ElementProofs.v
theories/ElementProps.v
theories/GuideModel.v
theories/GuideProps.v
theories/ConstexprModel.v
theories/ConstexprProps.v
theories/MixModel.v
theories/MixProps.v
theories/NewModel.v
theories/NewProps.v
theories/ThreadModel.v
theories/ThreadSpec.v
theories/ThreadLogic.v
theories/ThreadProofs.v
theories/ThreadStrings.v
theories/ThreadCalls.v
theories/ThreadProps.v
theories/NoexceptModel.v
theories/NoexceptProps.v
theories/TestVector.v
theories/TestString.v
theories/TestBitset.v
theories/TestOptional.v
theories/TestVariant.v
theories/TestArray.v
theories/TestTuple.v
theories/TestArrayRef.v
theories/TestStringRef.v
theories/TestOptionalRef.v
theories/TestVariantRef.v
theories/TestFunctionRef.v
theories/TestVisit.v
theories/TestStatic.v
theories/AbiModel.v
theories/AbiSpec.v
theories/AbiProofs.v
theories/AbiProps.v
theories/HeaderModel.v
theories/HeaderSpec.v
theories/HeaderProofs.v
theories/HeaderProps.v
theories/VectorCostSpec.v
theories/VectorCost.v
theories/VectorCostProps.v
theories/StringCostSpec.v
theories/StringCost.v
theories/StringCostProps.v
theories/VectorStableSpec.v
theories/VectorStable.v
theories/VectorStableProps.v
theories/StringStableSpec.v
theories/StringStable.v
theories/StringStableProps.v
theories/RecursiveModel.v
theories/RecursiveSpec.v
theories/Recursive.v
theories/RecursiveProps.v
theories/UnionModel.v
theories/Union.v
theories/UnionProps.v
theories/ConstModel.v
theories/ConstSpec.v
theories/ConstPaths.v
theories/ConstProps.v
theories/VectorViewModel.v
theories/VectorViewSpec.v
theories/VectorView.v
theories/VectorViewProps.v
theories/RefUnionModel.v
theories/RefUnion.v
theories/RefUnionProps.v
theories/StringViewModel.v
theories/StringViewSpec.v
theories/StringView.v
theories/StringViewProps.v
