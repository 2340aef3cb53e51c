-Q theories Verif
theories/ArrayBuild.v
theories/ArrayFacts.v
theories/ArrayFacts2.v
theories/ArrayFacts3.v
theories/Base.v
theories/BufferFacts.v
theories/BuildCell.v
theories/BuildFacts.v
theories/BuildPut.v
theories/CacheFacts.v
theories/ContainersFacts.v
theories/ContainersFacts2.v
theories/ContainersFacts3.v
theories/ContentsFacts.v
theories/DateFacts.v
theories/DateFacts2.v
theories/DecodeCauses.v
theories/DecodeComplete.v
theories/DecodeFacts.v
theories/DecodeMono.v
theories/DecodeSound.v
theories/Dict.v
theories/DoubleFacts.v
theories/DoubleFacts2.v
theories/EncodeCong.v
theories/EncodeCover.v
theories/EncodeErr.v
theories/EncodeFacts.v
theories/EncodeFacts2.v
theories/EncodeFacts3.v
theories/EncodeKeys.v
theories/EqFacts.v
theories/ErrorFacts.v
theories/FloatTextFacts.v
theories/HashFacts.v
theories/HashFacts2.v
theories/KeyFacts.v
theories/LogFacts.v
theories/MapFacts.v
theories/MapViewFacts.v
theories/MixedEqFacts.v
theories/ModelArray.v
theories/ModelBufRepr.v
theories/ModelBuffer.v
theories/ModelContainers.v
theories/ModelConvert.v
theories/ModelDate.v
theories/ModelDecode.v
theories/ModelEncode.v
theories/ModelEq.v
theories/ModelError.v
theories/ModelFlags.v
theories/ModelFloatText.v
theories/ModelFormat.v
theories/ModelHeap.v
theories/ModelLog.v
theories/ModelMap.v
theories/ModelMapInit.v
theories/ModelMapViews.v
theories/ModelMixedEq.v
theories/ModelObjViews.v
theories/ModelObject.v
theories/ModelObjectUse.v
theories/ModelOptions.v
theories/ModelOwner.v
theories/ModelPrim.v
theories/ModelPyEq.v
theories/ModelRepr.v
theories/ModelReprText.v
theories/ModelSequence.v
theories/ModelSetCompare.v
theories/ModelSetOps.v
theories/ModelSteps.v
theories/ModelTags.v
theories/ModelTyped.v
theories/ModelValue.v
theories/ModelVersion.v
theories/ModelVersionText.v
theories/ModelViewEq.v
theories/ObjectFacts.v
theories/ObjectUseFacts.v
theories/OwnerFacts.v
theories/OwnerFacts2.v
theories/OwnerFacts3.v
theories/OwnerFacts4.v
theories/PrimFacts.v
theories/PrimFacts2.v
theories/PrimFacts3.v
theories/Prop_Array.v
theories/Prop_BufRepr.v
theories/Prop_Buffer.v
theories/Prop_CacheSize.v
theories/Prop_Codes.v
theories/Prop_Containers.v
theories/Prop_Contents.v
theories/Prop_Convert.v
theories/Prop_Date.v
theories/Prop_Decode.v
theories/Prop_Decode2.v
theories/Prop_Encode.v
theories/Prop_Eq.v
theories/Prop_Eq2.v
theories/Prop_Error.v
theories/Prop_Flags.v
theories/Prop_FloatText.v
theories/Prop_Format.v
theories/Prop_JsKeys.v
theories/Prop_Key.v
theories/Prop_Log.v
theories/Prop_Map.v
theories/Prop_MapInit.v
theories/Prop_MapViews.v
theories/Prop_MixedEq.v
theories/Prop_ObjViews.v
theories/Prop_Object.v
theories/Prop_Object2.v
theories/Prop_ObjectUse.v
theories/Prop_Options.v
theories/Prop_Options2.v
theories/Prop_Owner.v
theories/Prop_Owner2.v
theories/Prop_Owner3.v
theories/Prop_Owner4.v
theories/Prop_Owner5.v
theories/Prop_Owner6.v
theories/Prop_Owner7.v
theories/Prop_Prim.v
theories/Prop_PyEq.v
theories/Prop_Redump.v
theories/Prop_Repr.v
theories/Prop_ReprSequence.v
theories/Prop_ReprText.v
theories/Prop_RoundTrip.v
theories/Prop_RoundTrip2.v
theories/Prop_RoundTrip3.v
theories/Prop_RoundTrip4.v
theories/Prop_RoundTrip5.v
theories/Prop_Same.v
theories/Prop_Sequence.v
theories/Prop_SetCompare.v
theories/Prop_SetOps.v
theories/Prop_SetPython.v
theories/Prop_Size.v
theories/Prop_Steps.v
theories/Prop_Store.v
theories/Prop_Truncate.v
theories/Prop_Typed.v
theories/Prop_V8.v
theories/Prop_V8Accepts.v
theories/Prop_Version.v
theories/Prop_VersionMarker.v
theories/Prop_VersionText.v
theories/Prop_ViewEq.v
theories/PyEqFacts.v
theories/PyEqFacts2.v
theories/RedumpFacts.v
theories/ReprFacts.v
theories/ReprFacts2.v
theories/ReprFacts3.v
theories/ReprFacts4.v
theories/ReprFacts5.v
theories/ReprFacts6.v
theories/ReprFacts7.v
theories/ReprFacts8.v
theories/RoundTrip.v
theories/RoundTrip2.v
theories/RoundTrip3.v
theories/RoundTrip4.v
theories/RoundTrip5.v
theories/RoundTrip6.v
theories/SameFacts.v
theories/SequenceFacts.v
theories/SizeFacts.v
theories/SpecArray.v
theories/SpecBufRepr.v
theories/SpecBuffer.v
theories/SpecBuild.v
theories/SpecCache.v
theories/SpecCauses.v
theories/SpecCodes.v
theories/SpecContainers.v
theories/SpecContents.v
theories/SpecDate.v
theories/SpecEncode.v
theories/SpecEq.v
theories/SpecError.v
theories/SpecFail.v
theories/SpecFloatText.v
theories/SpecGraph.v
theories/SpecJsKeys.v
theories/SpecKey.v
theories/SpecLog.v
theories/SpecMap.v
theories/SpecMapViews.v
theories/SpecMixedEq.v
theories/SpecNumber.v
theories/SpecObject.v
theories/SpecObjectUse.v
theories/SpecOwner.v
theories/SpecParts.v
theories/SpecPrim.v
theories/SpecPyEq.v
theories/SpecRepr.v
theories/SpecSame.v
theories/SpecSequence.v
theories/SpecSize.v
theories/SpecStore.v
theories/SpecTyped.v
theories/SpecV8.v
theories/SpecV8Accepts.v
theories/SpecVersion.v
theories/SpecViewEq.v
theories/SpecWire.v
theories/StoreFacts.v
theories/StoreText.v
theories/TypedFacts.v
theories/Unambiguous.v
theories/V8Facts.v
theories/V8Facts2.v
theories/V8Facts3.v
theories/ValueFacts.v
theories/VersionFacts.v
theories/VersionTextFacts.v
theories/VersionTextFacts2.v
theories/VersionTextFacts3.v
