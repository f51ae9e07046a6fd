-Q theories Verif
theories/Base.v
theories/NumSpec.v
theories/Atoi.v
theories/AtoiProofs.v
theories/AtoiAny.v
theories/JsonNum.v
theories/JsonNumProofs.v
theories/StrSpec.v
theories/Unescape.v
theories/UnescapeProofs.v
theories/Lookup.v
theories/PropsLeaf.v
theories/Types.v
theories/AppendType.v
theories/Token.v
theories/FloatLit.v
theories/Heap.v
theories/Memory.v
theories/Machine.v
theories/Parse.v
theories/Unique.v
theories/General.v
theories/Alias.v
theories/Alloc.v
theories/PropsGeneral.v
theories/World.v
theories/PropsCases.v
theories/Unmarshal.v
theories/PropsRefuted.v
theories/Dt.v
theories/Dec.v
theories/Control.v
theories/Root.v
theories/Rec.v
theories/Mixed.v
theories/Elab.v
theories/Value.v
theories/Dval.v
theories/Sep.v
theories/Refine.v
theories/Refine2.v
theories/Refine3.v
theories/Spec.v
theories/Typed.v
theories/SpecProofs.v
theories/Main.v
theories/RecSpec.v
theories/RecRefine.v
theories/RecElab.v
theories/Elaborate.v
theories/Frames.v
theories/Graph.v
theories/Layout.v
theories/PropsTypes.v
theories/PropsDecode.v
theories/PropsShared.v
theories/PropsStruct.v
theories/PropsSlice.v
theories/PropsNested.v
theories/PropsHistory.v
theories/PropsRec.v
theories/PropsRetained.v
theories/PropsQuoted.v
theories/PropsTags.v
theories/Sim.v
theories/PropsInput.v
theories/Provenance.v
theories/PropsOptions.v
theories/PropsErrors.v
theories/Prefix.v
theories/PropsPrefix.v
theories/Encodes.v
theories/RoundTrip.v
theories/Render.v
theories/Writable.v
theories/PropsRoundTrip.v
theories/RecTrip.v
theories/PropsRecTrip.v
theories/Order.v
theories/PropsOrder.v
theories/RecOrder.v
theories/PropsStrict.v
theories/Actual.v
theories/PropsExact.v
theories/OrderActual.v
theories/PropsAnyLeaf.v
theories/RecActual.v
theories/MixedSpec.v
theories/MixedRefine.v
theories/MixedElab.v
theories/PropsRecAny.v
theories/MixedTyped.v
theories/PtrSafe.v
theories/PropsMixed.v
theories/MixedOrder.v
theories/MixedTrip.v
theories/PropsRecRefuted.v
theories/PropsMixedStruct.v
theories/PropsExactMore.v
theories/PropsSafe.v
theories/PropsFailed.v
theories/PropsPlain.v
theories/PropsPtr.v
theories/Inject.v
theories/Local.v
theories/PropsConcurrent.v
theories/PropsNumber.v
theories/Accept.v
theories/PropsAccept.v
theories/PropsAgain.v
theories/AcceptRec.v
theories/PropsAcceptRec.v
theories/PropsFlat.v
theories/PropsLinked.v
theories/PropsTrees.v
theories/PropsProgram.v
theories/ConformLib.v
theories/ConformSpec.v
theories/Conformance.v
